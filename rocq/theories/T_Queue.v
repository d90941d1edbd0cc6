(** Property C16: the queue between two threads. *)
From Coq Require Import List Bool Arith Lia.
From Verif Require Import M_Base M_Queue S_Queue.
Import ListNotations.

Section Invariant.
Context {A : Type}.
Variable Q : nat.
Variable fresh : A.
Variable items : list A.
Hypothesis HQ : 0 < Q.

(** [written]: what has been written so far. *)
Definition written (q : queue A) : list A := firstn (length items - length (todo q)) items.

(** All places in the queue are place 0, which holds the last value written. *)
Definition ok (q : queue A) : Prop :=
  nextIndex q = 0 /\ (exists done, items = done ++ todo q /\
    (done = [] -> allocatedVolumes q = [] /\ waitingVolumes q = [] /\ delivered q = []) /\
    (done <> [] -> exists v, allocatedVolumes q = [v] /\ last done v = v) /\
    length done = length (delivered q) + length (waitingVolumes q)) /\
  Forall (fun i => i = 0) (waitingVolumes q) /\
  length (waitingVolumes q) <= Q /\
  (blocked q = true -> allocatedVolumes q <> [] /\ todo q <> []).

Lemma ok_initial : ok (initial items).
Proof.
  split; [reflexivity|]. split.
  - exists []. repeat split; auto; cbn; congruence.
  - cbn. repeat split; auto; try lia; discriminate.
Qed.

Lemma last_snoc (l : list A) v d : last (l ++ [v]) d = v.
Proof. induction l as [|a [|b l] IH]; cbn in *; auto. Qed.

Lemma write_body_ok q v rest : ok q -> todo q = v :: rest -> length (waitingVolumes q) < Q ->
  write_body Q fresh v rest q = Ok (mkqueue 0 [v] (waitingVolumes q ++ [0]) rest false (delivered q)).
Proof.
  intros (N & (done & E & H0 & H1 & L) & F & B & K) Et Hf. unfold write_body. rewrite N.
  destruct done as [|d done].
  - destruct H0 as (-> & _ & _); [reflexivity|]. cbn [length]. rewrite (proj2 (Nat.ltb_lt 0 Q)) by lia. reflexivity.
  - destruct H1 as (w & -> & _); [discriminate|]. cbn [length]. rewrite andb_false_r. reflexivity.
Qed.

Lemma ok_write q v rest : ok q -> todo q = v :: rest -> length (waitingVolumes q) < Q ->
  ok (mkqueue 0 [v] (waitingVolumes q ++ [0]) rest false (delivered q)).
Proof.
  intros (N & (done & E & H0 & H1 & L) & F & B & K) Et Hf. split; [reflexivity|]. split.
  - exists (done ++ [v]). cbn [todo allocatedVolumes waitingVolumes delivered]. rewrite Et in E. rewrite <- app_assoc.
    split; [exact E|]. split; [intros X; destruct done; discriminate|]. split.
    + intros _. exists v. split; [reflexivity|]. apply last_snoc.
    + rewrite !app_length. cbn [length]. lia.
  - cbn [waitingVolumes blocked todo allocatedVolumes]. split; [apply Forall_app; auto|].
    split; [rewrite app_length; cbn [length]; lia|discriminate].
Qed.

Lemma ok_step q r : ok q -> qstep Q fresh q r -> exists q', r = Ok q' /\ ok q'.
Proof.
  intros H [S|S].
  - unfold writer_section in S. destruct (todo q) as [|v rest] eqn:Et; [discriminate|].
    destruct (blocked q) eqn:Eb.
    + destruct (may_go_on q) eqn:Eg; [|discriminate]. destruct (full Q q) eqn:Ef; [discriminate|].
      unfold full in Ef. apply Nat.eqb_neq in Ef.
      assert (Hl : length (waitingVolumes q) < Q) by (destruct H as (_ & _ & _ & B & _); lia).
      injection S as <-. rewrite (write_body_ok q v rest H Et Hl). eauto using ok_write.
    + destruct (full Q q) eqn:Ef.
      * injection S as <-. eexists. split; [reflexivity|].
        destruct H as (N & (done & E & H0 & H1 & L) & F & B & K). split; [exact N|]. split.
        -- exists done. cbn. rewrite <- Et. repeat split; auto; now apply H0.
        -- cbn. split; [exact F|]. split; [exact B|]. intros _. split; [|congruence].
           unfold full in Ef. apply Nat.eqb_eq in Ef. destruct done as [|d done].
           ++ destruct H0 as (_ & W & _); [reflexivity|]. rewrite W in Ef. cbn in Ef. lia.
           ++ destruct H1 as (w & -> & _); discriminate.
      * unfold full in Ef. apply Nat.eqb_neq in Ef.
        assert (Hl : length (waitingVolumes q) < Q) by (destruct H as (_ & _ & _ & B & _); lia).
        injection S as <-. rewrite (write_body_ok q v rest H Et Hl). eauto using ok_write.
  - unfold popper_section in S. destruct (waitingVolumes q) as [|i w] eqn:Ew; [discriminate|].
    injection S as <-. destruct H as (N & (done & E & H0 & H1 & L) & F & B & K).
    rewrite Ew in F, B, L. inversion F as [|? ? -> F']; subst.
    destruct done as [|d done]; [cbn in L; lia|].
    destruct H1 as (v & Ev & Lv); [discriminate|]. rewrite Ev. cbn [nth_error].
    eexists. split; [reflexivity|]. split; [exact N|]. split.
    + exists (d :: done). cbn [todo allocatedVolumes waitingVolumes delivered]. split; [exact E|].
      split; [discriminate|]. split; [intros _; exists v; auto|]. rewrite app_length. cbn [length] in *. lia.
    + cbn. cbn in B. split; [exact F'|]. split; [lia|]. rewrite <- Ev. exact K.
Qed.

Lemma ok_reaches q : reaches Q fresh (initial items) q -> ok q.
Proof.
  induction 1 as [|q1 q2 _ IH S]; [apply ok_initial|].
  destruct (ok_step q1 (Ok q2) IH S) as (q' & E & O). injection E as ->. exact O.
Qed.
End Invariant.

(** Whatever the schedule: no access out of bounds, never more than queueLength
    snapshots wait, and as many are delivered or waiting as were written. *)
Theorem C16_counts : forall A Q (fresh : A) items q, 0 < Q -> reaches Q fresh (initial items) q ->
  length (waitingVolumes q) <= Q /\
  length (delivered q) + length (waitingVolumes q) + length (todo q) = length items /\
  forall r, qstep Q fresh q r -> exists q', r = Ok q'.
Proof.
  intros A Q fresh items q HQ H. pose proof (ok_reaches Q fresh items HQ q H) as O.
  pose proof O as (_ & (done & E & _ & _ & L) & _ & B & _). split; [exact B|]. split.
  - rewrite E, app_length. lia.
  - intros r S. destruct (ok_step Q fresh items HQ q r O S) as (q' & -> & _). eauto.
Qed.

(** No deadlock: as long as anything is left to write or to deliver, one of the
    threads gets on. *)
Theorem C16_no_deadlock : forall A Q (fresh : A) items q, 0 < Q -> reaches Q fresh (initial items) q ->
  todo q <> [] \/ waitingVolumes q <> [] -> exists q', qstep Q fresh q (Ok q').
Proof.
  intros A Q fresh items q HQ H Hl. pose proof (ok_reaches Q fresh items HQ q H) as O.
  destruct (waitingVolumes q) as [|i w] eqn:Ew.
  - destruct Hl as [Hl|Hl]; [|congruence].
    assert (exists r, writer_section Q fresh q = Some r) as (r & S).
    { unfold writer_section, full. destruct (todo q) as [|v rest]; [congruence|].
      rewrite Ew. cbn [length]. rewrite (proj2 (Nat.eqb_neq 0 Q)) by lia.
      destruct (blocked q) eqn:Eb; [|eauto]. unfold may_go_on. rewrite Ew. cbn [length].
      destruct O as (_ & _ & _ & _ & K). destruct (K Eb) as (K1 & _).
      destruct (allocatedVolumes q); [congruence|]. cbn. eauto. }
    destruct (ok_step Q fresh items HQ q r O (writer_step Q fresh q r S)) as (q' & -> & _).
    exists q'. now apply writer_step.
  - assert (exists r, popper_section q = Some r) as (r & S).
    { unfold popper_section. rewrite Ew. eauto. }
    destruct (ok_step Q fresh items HQ q r O (popper_step Q fresh q r S)) as (q' & -> & _).
    exists q'. now apply popper_step.
Qed.

(** ... and only finitely many sections can follow, so that in the end everything
    has been delivered (in number). *)
Definition work {A} (q : queue A) : nat :=
  3 * length (todo q) + length (waitingVolumes q) + (if blocked q then 0 else 1).
Theorem C16_terminates : forall A Q (fresh : A) items q q', 0 < Q -> reaches Q fresh (initial items) q ->
  qstep Q fresh q (Ok q') -> work q' < work q.
Proof.
  intros A Q fresh items q q' HQ H S. pose proof (ok_reaches Q fresh items HQ q H) as O. unfold work.
  destruct S as [S|S].
  - unfold writer_section in S. destruct (todo q) as [|v rest] eqn:Et; [discriminate|].
    assert (W : length (waitingVolumes q) < Q -> Some (write_body Q fresh v rest q) = Some (Ok q') ->
      3 * length (todo q') + length (waitingVolumes q') + (if blocked q' then 0 else 1) <
      3 * length (v :: rest) + length (waitingVolumes q)).
    { intros Hl X. injection X as X. rewrite (write_body_ok Q fresh items HQ q v rest O Et Hl) in X.
      injection X as <-. cbn [todo waitingVolumes blocked length]. rewrite app_length. cbn [length]. lia. }
    destruct (blocked q) eqn:Eb.
    + destruct (may_go_on q); [|discriminate]. destruct (full Q q) eqn:Ef; [discriminate|].
      unfold full in Ef. apply Nat.eqb_neq in Ef. destruct O as (_ & _ & _ & B & _). specialize (W ltac:(lia) S). lia.
    + destruct (full Q q) eqn:Ef.
      * injection S as <-. cbn. lia.
      * unfold full in Ef. apply Nat.eqb_neq in Ef. destruct O as (_ & _ & _ & B & _). specialize (W ltac:(lia) S). lia.
  - unfold popper_section in S. destruct (waitingVolumes q) as [|i w]; [discriminate|].
    destruct (nth_error (allocatedVolumes q) i); [|discriminate]. injection S as <-. cbn. lia.
Qed.

(** What is delivered: not the snapshot whose turn it is but the one written last. *)
Theorem C16_latest_delivered : forall A Q (fresh : A) items q q', 0 < Q -> reaches Q fresh (initial items) q ->
  popper_section q = Some (Ok q') ->
  exists v, delivered q' = delivered q ++ [v] /\ last (written items q) v = v /\ written items q <> [].
Proof.
  intros A Q fresh items q q' HQ H S. pose proof (ok_reaches Q fresh items HQ q H) as (_ & (done & E & _ & H1 & L) & F & _).
  unfold popper_section in S. destruct (waitingVolumes q) as [|i w] eqn:Ew; [discriminate|].
  inversion F as [|? ? -> _]; subst i. destruct done as [|d done]; [cbn in L; lia|].
  destruct H1 as (v & Ev & Lv); [discriminate|]. rewrite Ev in S. cbn [nth_error] in S. injection S as <-.
  exists v. split; [reflexivity|].
  assert (Ed : written items q = d :: done).
  { unfold written. rewrite E, app_length. replace (length (d :: done) + length (todo q) - length (todo q)) with (length (d :: done)) by lia.
    rewrite firstn_app, firstn_all, Nat.sub_diag. apply app_nil_r. }
  rewrite Ed. split; [exact Lv|discriminate].
Qed.

(** With queue length 1 the property holds: for every schedule the delivered
    snapshots are the ones written, in order and unmodified.
    Full statement: for every queue length; refuted below. *)
Theorem C16_length_one_partial : forall A (fresh : A) items q, reaches 1 fresh (initial items) q ->
  in_order items (delivered q) /\
  (todo q = [] -> waitingVolumes q = [] -> delivered q = items).
Proof.
  intros A fresh items q H.
  assert (G : exists done, items = done ++ todo q /\
    (waitingVolumes q = [] -> delivered q = done) /\
    (waitingVolumes q <> [] -> exists v, allocatedVolumes q = [v] /\ delivered q ++ [v] = done)).
  { induction H as [|q1 q2 Hr IH S].
    - exists []. repeat split; cbn; congruence.
    - destruct IH as (done & E & G0 & G1). pose proof (ok_reaches 1 fresh items ltac:(lia) q1 Hr) as O.
      destruct S as [S|S].
      + unfold writer_section in S. destruct (todo q1) as [|v rest] eqn:Et; [discriminate|].
        assert (W : full 1 q1 = false -> Some (write_body 1 fresh v rest q1) = Some (Ok q2) ->
          exists done, items = done ++ todo q2 /\
          (waitingVolumes q2 = [] -> delivered q2 = done) /\
          (waitingVolumes q2 <> [] -> exists v, allocatedVolumes q2 = [v] /\ delivered q2 ++ [v] = done)).
        { intros Ef X. unfold full in Ef. apply Nat.eqb_neq in Ef. injection X as X.
          assert (Hl : length (waitingVolumes q1) < 1) by (destruct O as (_ & _ & _ & B & _); lia).
          rewrite (write_body_ok 1 fresh items ltac:(lia) q1 v rest O Et Hl) in X. injection X as <-.
          assert (Ew : waitingVolumes q1 = []) by (destruct (waitingVolumes q1); [reflexivity|cbn in Hl; lia]).
          exists (done ++ [v]). rewrite <- app_assoc. split; [exact E|]. cbn. rewrite Ew. split; [discriminate|].
          intros _. exists v. split; [reflexivity|]. now rewrite G0. }
        destruct (blocked q1).
        * destruct (may_go_on q1); [|discriminate]. destruct (full 1 q1) eqn:Ef; [discriminate|]. auto.
        * destruct (full 1 q1) eqn:Ef; [|auto]. injection S as <-. exists done. cbn. auto.
      + unfold popper_section in S. destruct (waitingVolumes q1) as [|i w] eqn:Ew; [discriminate|].
        destruct O as (_ & _ & F & B & _). rewrite Ew in F, B. inversion F as [|? ? -> _]; subst i.
        assert (w = []) by (destruct w; [reflexivity|cbn in B; lia]). subst w.
        destruct G1 as (v & Ev & G1); [discriminate|]. rewrite Ev in S. cbn [nth_error] in S. injection S as <-.
        exists done. cbn. split; [exact E|]. split; [auto|congruence]. }
  destruct G as (done & E & G0 & G1). split.
  - destruct (waitingVolumes q) as [|i w] eqn:Ew.
    + rewrite G0 by reflexivity. eexists. exact E.
    + destruct G1 as (v & _ & G1); [discriminate|]. exists (v :: todo q). rewrite E, <- G1, <- app_assoc. reflexivity.
  - intros Ht Hw. rewrite G0 by exact Hw. rewrite Ht, app_nil_r in E. now symmetry.
Qed.

(** The first snapshot is lost and the second delivered twice, if both are written
    before the first is popped; for every queue length above 1. *)
Theorem C16_refuted : forall A Q (fresh a b : A), 2 <= Q -> exists q,
  reaches Q fresh (initial [a; b]) q /\ todo q = [] /\ waitingVolumes q = [] /\
  delivered q = [b; b] /\ (a <> b -> ~ in_order [a; b] (delivered q)).
Proof.
  intros A Q fresh a b HQ.
  exists (mkqueue 0 [b] [] [] false [b; b]).
  assert (F0 : (0 =? Q) = false) by (apply Nat.eqb_neq; lia).
  assert (F1 : (1 =? Q) = false) by (apply Nat.eqb_neq; lia).
  assert (L0 : (0 <? Q) = true) by (apply Nat.ltb_lt; lia).
  repeat split.
  - eapply reaches_step; [eapply reaches_step; [eapply reaches_step; [eapply reaches_step; [apply reaches_refl|]|]|]|].
    + apply writer_step. unfold writer_section, initial, full, write_body. cbn [todo blocked waitingVolumes length nextIndex allocatedVolumes].
      rewrite F0, L0. cbn. reflexivity.
    + apply writer_step. unfold writer_section, full, write_body. cbn [todo blocked waitingVolumes length nextIndex allocatedVolumes app].
      rewrite F1, L0. cbn. reflexivity.
    + apply popper_step. reflexivity.
    + apply popper_step. reflexivity.
  - cbn. intros N (rest & E). injection E as E _. congruence.
Qed.

(** With length 0 ("queueLength must be larger than 0", QueueWriter.hpp line 41)
    nothing is ever written: the writing thread waits for ever. *)
Theorem C16_length_zero_blocks : forall A (fresh : A) items q, reaches 0 fresh (initial items) q ->
  delivered q = [] /\ todo q = items.
Proof.
  intros A fresh items q H.
  assert (G : delivered q = [] /\ todo q = items /\ waitingVolumes q = []).
  { induction H as [|q1 q2 _ (D & T & W) S]; [cbn; auto|]. destruct S as [S|S].
    - unfold writer_section, full in S. rewrite W in S. cbn [length Nat.eqb] in S.
      destruct (todo q1) as [|v rest] eqn:Et; [discriminate|].
      destruct (blocked q1); [destruct (may_go_on q1); discriminate|]. injection S as <-. cbn. auto.
    - unfold popper_section in S. rewrite W in S. discriminate. }
  tauto.
Qed.

Print Assumptions C16_counts.
Print Assumptions C16_no_deadlock.
Print Assumptions C16_terminates.
Print Assumptions C16_latest_delivered.
Print Assumptions C16_length_one_partial.
Print Assumptions C16_refuted.
Print Assumptions C16_length_zero_blocks.

(** Three snapshots through a queue of length 1; the second write has to wait. *)
Example C16_example : exists q, reaches 1 9 (initial [1; 2]) q /\
  blocked q = true /\ waitingVolumes q = [0] /\ todo q = [2].
Proof.
  eexists. split.
  - eapply reaches_step; [eapply reaches_step; [apply reaches_refl|]|]; apply writer_step; reflexivity.
  - auto.
Qed.
Example C16_example_end : exists q, reaches 1 9 (initial [1; 2]) q /\ delivered q = [1; 2] /\ todo q = [] /\ waitingVolumes q = [].
Proof.
  eexists. split.
  - eapply reaches_step; [eapply reaches_step; [eapply reaches_step; [eapply reaches_step; [eapply reaches_step; [apply reaches_refl|]|]|]|]|].
    + apply writer_step. reflexivity.
    + apply writer_step. reflexivity.
    + apply popper_step. reflexivity.
    + apply writer_step. reflexivity.
    + apply popper_step. reflexivity.
  - auto.
Qed.
