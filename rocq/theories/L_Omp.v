(** Parallel loops with independent iterations. *)
From Coq Require Import ZArith Reals List Bool Lia Permutation FunctionalExtensionality.
From Verif Require Import M_Base L_Base M_Omp.
Import ListNotations.
Open Scope Z_scope.

Section Omp.
Context {A X : Type}.
Variable size : Z -> Z.
Notation prog := (prog A X).
Notation shared := (shared A).
Notation pstep := (pstep size).
Notation psteps := (psteps size).
Notation run := (run size).

(** What a program may access. *)
Inductive accs : prog -> bool -> Z -> Z -> Prop :=
| accs_load a i k : accs (Fetch a i k) false a i
| accs_load_later a i k v w b j : accs (k v) w b j -> accs (Fetch a i k) w b j
| accs_store a i v k : accs (Store a i v k) true a i
| accs_store_later a i v k w b j : accs k w b j -> accs (Store a i v k) w b j.

Definition apart (p q : prog) : Prop :=
  forall w w' a i, accs p w a i -> accs q w' a i -> w = false /\ w' = false.

Definition independent (ps : list prog) : Prop := ForallOrdPairs apart ps.

Lemma apart_sym p q : apart p q -> apart q p.
Proof. intros H w w' a i H1 H2. destruct (H w' w a i H2 H1). auto. Qed.

Lemma put_put_comm m a i v b j w : (a, i) <> (b, j) ->
  put (put m a i v) b j w = put (put m b j w) a i v :> shared.
Proof.
  intros H. apply functional_extensionality; intros c. apply functional_extensionality; intros l.
  unfold put. destruct (Z.eqb_spec c b), (Z.eqb_spec l j), (Z.eqb_spec c a), (Z.eqb_spec l i); cbn; auto.
  subst. congruence.
Qed.
Lemma put_other m a i v b j : (a, i) <> (b, j) -> @put A m a i v b j = m b j.
Proof.
  intros H. unfold put. destruct (Z.eqb_spec b a), (Z.eqb_spec j i); cbn; auto. subst; congruence.
Qed.

(** Position-wise form of a step. *)
Inductive pstep1 (m : shared) : prog -> shared -> prog -> Prop :=
| p1_load a i k : inside size a i = true -> pstep1 m (Fetch a i k) m (k (m a i))
| p1_store a i v k : inside size a i = true -> pstep1 m (Store a i v k) (put m a i v) k.

Lemma pstep_split m ps m' ps' : pstep (m, ps) (m', ps') ->
  exists l p r p', ps = l ++ p :: r /\ ps' = l ++ p' :: r /\ pstep1 m p m' p'.
Proof.
  intros H. inversion H; subst.
  - do 4 eexists. split; [reflexivity|]. split; [reflexivity|]. constructor; auto.
  - do 4 eexists. split; [reflexivity|]. split; [reflexivity|]. constructor; auto.
Qed.
Lemma pstep_join m l p r m' p' : pstep1 m p m' p' -> pstep (m, l ++ p :: r) (m', l ++ p' :: r).
Proof. intros H. inversion H; subst; constructor; auto. Qed.

Lemma pstep1_det m p m1 p1 m2 p2 : pstep1 m p m1 p1 -> pstep1 m p m2 p2 -> m1 = m2 /\ p1 = p2.
Proof. intros H1 H2. inversion H1; subst; inversion H2; subst; auto. Qed.

Lemma accs_step m p m' p' w a i : pstep1 m p m' p' -> accs p' w a i -> accs p w a i.
Proof. intros H1 H2. inversion H1; subst; econstructor; eauto. Qed.

Lemma pstep1_comm m p m1 p' q m2 q' : apart p q -> pstep1 m p m1 p' -> pstep1 m q m2 q' ->
  exists m3, pstep1 m1 q m3 q' /\ pstep1 m2 p m3 p'.
Proof.
  intros Hap H1 H2. inversion H1; subst; inversion H2; subst.
  - eexists; split; constructor; auto.
  - eexists; split; [constructor; auto|].
    replace (k (m1 a i)) with (k (put m1 a0 i0 v a i)); [constructor; auto|].
    f_equal. apply put_other. intros [= -> ->].
    destruct (Hap false true a i); try constructor. discriminate.
  - eexists; split; [|constructor; auto].
    replace (k (m2 a0 i0)) with (k (put m2 a i v a0 i0)); [constructor; auto|].
    f_equal. apply put_other. intros [= -> ->].
    destruct (Hap true false a0 i0); try constructor. discriminate.
  - exists (put (put m a i v) a0 i0 v0). split; [constructor; auto|].
    rewrite put_put_comm; [constructor; auto|].
    intros [= -> ->]. destruct (Hap true true a0 i0); try constructor. discriminate.
Qed.

Lemma independent_In l p r : independent (l ++ p :: r) ->
  (forall q, In q l -> apart q p) /\ (forall q, In q r -> apart p q).
Proof.
  induction l as [|q0 l IH]; cbn; intros H; inversion H; subst.
  - split; [tauto|]. intros q Hq. rewrite Forall_forall in H2. auto.
  - destruct (IH H3) as [I1 I2]. split; auto. intros q [<-|Hq]; auto.
    rewrite Forall_forall in H2. apply H2. apply in_or_app; right; left; auto.
Qed.
Lemma independent_two l p c q r : independent (l ++ p :: c ++ q :: r) -> apart p q.
Proof. intros H. apply independent_In in H. apply H. apply in_or_app; right; left; auto. Qed.

Lemma independent_replace l p p' r : (forall w a i, accs p' w a i -> accs p w a i) ->
  independent (l ++ p :: r) -> independent (l ++ p' :: r).
Proof.
  intros Hp. induction l as [|q l IH]; cbn; intros H; inversion H; subst; constructor; auto.
  - rewrite Forall_forall in *. intros q Hq w w' a i H4 H5. eapply H2; eauto.
  - rewrite Forall_forall in *. intros q' Hq'. apply in_app_or in Hq'. destruct Hq' as [Hq'|[<-|Hq']].
    + apply H2. apply in_or_app; auto.
    + intros w w' a i H4 H5. eapply (H2 p); eauto. apply in_or_app; right; left; auto.
    + apply H2. apply in_or_app; right; right; auto.
  - apply IH; auto.
Qed.

Lemma independent_pstep s s' : pstep s s' -> independent (snd s) -> independent (snd s').
Proof.
  destruct s as [m ps], s' as [m' ps']. intros H Hi. cbn [snd] in *.
  destruct (pstep_split _ _ _ _ H) as (l & p & r & p' & -> & -> & H1).
  apply (independent_replace l p p' r); [|exact Hi]. intros w a i. exact (accs_step m p m' p' w a i H1).
Qed.

(** Two occurrences in one list. *)
Lemma two_places {B} (l : list B) x r l' y r' : l ++ x :: r = l' ++ y :: r' ->
  (l = l' /\ x = y /\ r = r') \/
  (exists c, l' = l ++ x :: c /\ r = c ++ y :: r') \/
  (exists c, l = l' ++ y :: c /\ r' = c ++ x :: r).
Proof.
  revert l'. induction l as [|b l IH]; intros [|b' l'] H; cbn in H; injection H as E1 E2; subst.
  - left; auto.
  - right; left. exists l'. auto.
  - right; right. exists l. auto.
  - destruct (IH _ E2) as [(-> & -> & ->)|[(c & -> & ->)|(c & -> & ->)]].
    + left; auto.
    + right; left. exists c. auto.
    + right; right. exists c. auto.
Qed.

Lemma diamond s s1 s2 : independent (snd s) -> pstep s s1 -> pstep s s2 ->
  s1 = s2 \/ exists s3, pstep s1 s3 /\ pstep s2 s3.
Proof.
  destruct s as [m ps], s1 as [m1 ps1], s2 as [m2 ps2]. cbn [snd]. intros Hi H1 H2.
  destruct (pstep_split _ _ _ _ H1) as (l & p & r & p' & E1 & -> & S1).
  destruct (pstep_split _ _ _ _ H2) as (l' & q & r' & q' & E2 & -> & S2).
  rewrite E1 in E2. destruct (two_places _ _ _ _ _ _ E2) as [(-> & -> & ->)|[(c & -> & ->)|(c & -> & ->)]].
  - left. destruct (pstep1_det _ _ _ _ _ _ S1 S2) as [-> ->]. reflexivity.
  - right. rewrite E1 in Hi. pose proof (independent_two _ _ _ _ _ Hi) as Hap.
    destruct (pstep1_comm _ _ _ _ _ _ _ Hap S1 S2) as (m3 & T1 & T2).
    exists (m3, l ++ p' :: c ++ q' :: r'). split.
    + rewrite !app_comm_cons, !app_assoc. apply pstep_join. auto.
    + rewrite <- app_assoc. cbn. apply pstep_join. auto.
  - right. rewrite E1 in Hi. rewrite <- app_assoc in Hi. cbn in Hi.
    pose proof (apart_sym _ _ (independent_two _ _ _ _ _ Hi)) as Hap.
    destruct (pstep1_comm _ _ _ _ _ _ _ Hap S1 S2) as (m3 & T1 & T2).
    exists (m3, l' ++ q' :: c ++ p' :: r). split.
    + rewrite <- app_assoc. cbn. apply pstep_join. auto.
    + rewrite !app_comm_cons, !app_assoc. apply pstep_join. auto.
Qed.

Definition finished (s : shared * list prog) : Prop := exists xss, snd s = map Ret xss.

Lemma finished_stuck s s' : finished s -> ~ pstep s s'.
Proof.
  intros [xss E] H. destruct s as [m ps], s' as [m' ps']. cbn in E. subst.
  destruct (pstep_split _ _ _ _ H) as (l & p & r & p' & E & _ & S).
  assert (In p (map Ret xss)) as Hin by (rewrite E; apply in_or_app; right; left; auto).
  apply in_map_iff in Hin. destruct Hin as (xs & <- & _). inversion S.
Qed.

(** Every step of an execution that can end is a step towards its end. *)
Lemma step_towards n : forall s f s', independent (snd s) -> psteps n s f -> finished f -> pstep s s' ->
  exists k, n = S k /\ psteps k s' f.
Proof.
  induction n as [|n IH]; intros s f s' Hi Hn Hf H.
  - inversion Hn; subst. exfalso. eapply finished_stuck; eauto.
  - inversion Hn; subst. destruct (diamond _ _ _ Hi H1 H) as [->|(s3 & T1 & T2)].
    + exists n; auto.
    + destruct (IH _ _ s3 (independent_pstep _ _ H1 Hi) H2 Hf T1) as (k & -> & Hk).
      exists (S k). split; auto. econstructor; eauto.
Qed.
Lemma steps_towards k : forall n s f s', independent (snd s) -> psteps n s f -> finished f -> psteps k s s' ->
  (k <= n)%nat /\ psteps (n - k) s' f /\ independent (snd s').
Proof.
  induction k as [|k IH]; intros n s f s' Hi Hn Hf H; inversion H; subst.
  - rewrite Nat.sub_0_r. split; [lia|auto].
  - destruct (step_towards _ _ _ _ Hi Hn Hf H1) as (n' & -> & Hn').
    destruct (IH n' _ _ _ (independent_pstep _ _ H1 Hi) Hn' Hf H2) as (Hk & Hs & Hi').
    split; [lia|]. split; auto.
Qed.

Lemma finished_undefined s : finished s -> ~ undefined size s.
Proof.
  intros [xss E] H. assert (forall p, In p (snd s) -> exists xs, p = Ret xs) as Hr.
  { intros p Hp. rewrite E in Hp. apply in_map_iff in Hp. destruct Hp as (xs & <- & _). eauto. }
  inversion H; subst; cbn [snd] in *.
  - destruct (Hr Fail) as [xs Hx]; [apply in_or_app; right; left; auto|]. discriminate.
  - destruct (Hr p) as [xs ->]; [apply in_or_app; right; left; auto|]. discriminate.
  - destruct (Hr p) as [xs ->]; [apply in_or_app; right; left; auto|]. discriminate.
Qed.

(** An iteration that cannot go on stays as it is. *)
Lemma stuck_stays n : forall s f l p r, psteps n s f -> snd s = l ++ p :: r -> (forall m m' p', ~ pstep1 m p m' p') ->
  In p (snd f).
Proof.
  induction n as [|n IH]; intros s f l p r Hn E Hs; inversion Hn; subst.
  - rewrite E. apply in_or_app; right; left; auto.
  - destruct s as [m ps], s1 as [m1 ps1]. cbn [snd] in E. subst.
    destruct (pstep_split _ _ _ _ H0) as (l' & q & r' & q' & E & -> & S).
    destruct (two_places _ _ _ _ _ _ E) as [(-> & -> & ->)|[(c & -> & ->)|(c & -> & ->)]].
    + exfalso. eapply Hs; eauto.
    + eapply IH; eauto. cbn [snd]. rewrite <- app_assoc. reflexivity.
    + eapply (IH (m1, l' ++ q' :: c ++ p :: r) f (l' ++ q' :: c) p r); eauto.
      cbn [snd]. rewrite <- app_assoc. reflexivity.
Qed.

Lemma safe n s f : independent (snd s) -> psteps n s f -> finished f -> ~ undefined size s.
Proof.
  intros Hi Hn Hf H. inversion H; subst; cbn [snd] in *.
  - assert (In Fail (snd f)) as Hin.
    { eapply (stuck_stays n (m, l ++ Fail :: r)); cbn; eauto. intros ? ? ? S; inversion S. }
    destruct Hf as [xss E]. rewrite E in Hin. apply in_map_iff in Hin. destruct Hin as (? & ? & _). discriminate.
  - assert (In p (snd f)) as Hin.
    { eapply (stuck_stays n (m, l ++ p :: r)); cbn; eauto.
      intros m1 m2 p' S. inversion S; subst; cbn in H0; injection H0 as <- <- <-; congruence. }
    destruct Hf as [xss E]. rewrite E in Hin. apply in_map_iff in Hin. destruct Hin as (? & <- & _). discriminate.
  - pose proof (independent_two _ _ _ _ _ Hi) as Hap.
    destruct (Hap w w' a i) as [-> ->]; [| |discriminate].
    + destruct p; cbn in H0; try discriminate; injection H0 as <- <- <-; constructor.
    + destruct q; cbn in H1; try discriminate; injection H1 as <- <- <-; constructor.
Qed.

(** One thread doing everything in order is one of the executions. *)
Lemma psteps_app n m (s1 s2 s3 : shared * list prog) : psteps n s1 s2 -> psteps m s2 s3 -> psteps (n + m) s1 s3.
Proof. induction 1; cbn; auto. intros H1. econstructor; eauto. Qed.

Lemma run_psteps (p : prog) : forall m m1 xs l r, run p m = Ok (m1, xs) ->
  exists n, psteps n (m, l ++ p :: r) (m1, l ++ Ret xs :: r).
Proof.
  induction p as [ys|a i k IH|a i v k IH|]; cbn; intros m m' xs l r H.
  - injection H as <- <-. exists O. constructor.
  - destruct (inside size a i) eqn:E; [|discriminate].
    destruct (IH (m a i) m m' xs l r H) as [n Hn]. exists (S n). econstructor; [|exact Hn]. constructor; auto.
  - destruct (inside size a i) eqn:E; [|discriminate].
    destruct (IH _ m' xs l r H) as [n Hn]. exists (S n). econstructor; [|exact Hn]. constructor; auto.
  - discriminate.
Qed.

Lemma run_loop_psteps (ps : list prog) : forall m ys m' zs, fold_res (fun p s => r <- run p (fst s);; Ok (fst r, snd s ++ snd r)) ps (m, ys) = Ok (m', zs) ->
  forall l, exists n xss, psteps n (m, map Ret l ++ ps) (m', map Ret (l ++ xss)) /\ zs = ys ++ concat xss.
Proof.
  induction ps as [|p ps IH]; cbn; intros m ys m' zs H l.
  - injection H as <- <-. exists O, []. rewrite !app_nil_r. split; [constructor|auto].
  - destruct (run p m) as [[m1 xs]| |] eqn:E; cbn in H; try discriminate.
    destruct (run_psteps p _ _ _ (map Ret l) ps E) as [n1 H1].
    destruct (IH _ _ _ _ H (l ++ [xs])) as (n2 & xss & H2 & ->).
    exists (n1 + n2)%nat, (xs :: xss). split.
    + eapply psteps_app; [exact H1|]. rewrite map_app in H2. cbn in H2. rewrite <- app_assoc in H2. cbn in H2.
      rewrite <- app_assoc in H2. exact H2.
    + cbn. rewrite app_assoc. reflexivity.
Qed.

Lemma map_Ret_inj (a b : list (list X)) : map (@Ret A X) a = map Ret b -> a = b.
Proof.
  revert b; induction a as [|x a IH]; intros [|y b] H; cbn in H; try discriminate; auto.
  injection H as -> H. f_equal; auto.
Qed.

(** The outcome of one loop. *)
Lemma outcome_unique (ps : list prog) m x : independent ps -> run_loop size ps m = Ok x ->
  outcome size ps m (Ok x) /\ (forall r, outcome size ps m r -> r = Ok x) /\
  exists n, forall k s, psteps k (m, ps) s -> (k <= n)%nat.
Proof.
  intros Hi H. unfold run_loop in H. destruct x as [m' zs].
  destruct (run_loop_psteps ps _ _ _ _ H []) as (n & xss & Hn & ->). cbn in Hn.
  assert (finished (m', map Ret xss)) as Hf by (exists xss; auto).
  split; [|split].
  - cbn. econstructor; eauto.
  - intros r Hr. inversion Hr; subst.
    + destruct (steps_towards n0 n (m, ps) _ _ Hi Hn Hf H0) as (_ & H2 & _).
      destruct (n - n0)%nat.
      * inversion H2; subst. apply map_Ret_inj in H5. subst. reflexivity.
      * inversion H2; subst. exfalso. eapply finished_stuck; [|exact H3]. exists xss0; auto.
    + exfalso. destruct (steps_towards n0 n (m, ps) _ _ Hi Hn Hf H0) as (_ & H2 & H3).
      eapply safe; eauto.
  - exists n. intros k s Hk. eapply (steps_towards k n (m, ps)); eauto.
Qed.

Lemma run_loops_cons (ps : list prog) pss m : run_loops size (ps :: pss) m =
  (r <- run_loop size ps m;; r2 <- run_loops size pss (fst r);; Ok (fst r2, snd r ++ snd r2)).
Proof.
  unfold run_loops at 1. cbn [fold_res fst snd]. destruct (run_loop size ps m) as [[m1 xs]| |]; cbn; auto.
  assert (forall s ys, fold_res (fun ps s => r <- run_loop size ps (fst s);; Ok (fst r, snd s ++ snd r)) pss (s, ys)
    = (r2 <- run_loops size pss s;; Ok (fst r2, ys ++ snd r2))) as G.
  { clear. induction pss as [|p pss IH]; intros s ys; cbn.
    - rewrite app_nil_r. reflexivity.
    - unfold run_loops. cbn [fold_res fst snd]. destruct (run_loop size p s) as [[m1 xs]| |]; cbn; auto.
      rewrite !IH. destruct (run_loops size pss m1) as [[]| |]; cbn; auto. rewrite app_assoc. reflexivity. }
  apply G.
Qed.

Lemma outcomes_unique (pss : list (list prog)) : forall m x, Forall independent pss -> run_loops size pss m = Ok x ->
  outcomes size pss m (Ok x) /\ (forall r, outcomes size pss m r -> r = Ok x).
Proof.
  induction pss as [|ps pss IH]; intros m x Hi H.
  - cbn in H. injection H as <-. split; [constructor|]. intros r Hr. inversion Hr; auto.
  - rewrite run_loops_cons in H. inversion Hi; subst.
    destruct (run_loop size ps m) as [[m1 xs]| |] eqn:E1; cbn in H; try discriminate.
    destruct (run_loops size pss m1) as [[m2 ys]| |] eqn:E2; cbn in H; try discriminate.
    injection H as <-. destruct (outcome_unique _ _ _ H2 E1) as (O1 & U1 & _).
    destruct (IH _ _ H3 E2) as (O2 & U2). split; [econstructor; eauto|].
    intros r Hr. inversion Hr; subst; clear Hr;
      repeat match goal with
      | G : outcome size ps m _ |- _ => apply U1 in G; try discriminate G; injection G as -> ->
      | G : outcomes size pss m1 _ |- _ => apply U2 in G; try discriminate G; injection G as -> ->
      end; reflexivity.
Qed.
End Omp.
