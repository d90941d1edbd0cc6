(** Lemmas on exchanges between GPUs. *)
From Coq Require Import ZArith List Bool Lia.
From Verif Require Import M_Base M_Flux M_Sim M_Mpi M_Omp M_Cuda M_CudaExchange S_Mpi L_Base.
Import ListNotations.
Open Scope Z_scope.

(** * Boxes *)
Lemma six s : 0 <= s < 6 -> s = 0 \/ s = 1 \/ s = 2 \/ s = 3 \/ s = 4 \/ s = 5.
Proof. lia. Qed.
Ltac sides H := destruct (six _ H) as [-> |[-> |[-> |[-> |[-> | ->]]]]].

Lemma opp_opp s : 0 <= s < 6 -> opposite_side (opposite_side s) = s.
Proof. intros H. sides H; reflexivity. Qed.
Lemma opp_range dims s : 1 <= dims <= 3 -> 0 <= s < 2 * dims -> 0 <= opposite_side s < 2 * dims.
Proof. intros Hd H. assert (H6 : 0 <= s < 6) by lia. revert H. sides H6;
  match goal with |- context [opposite_side ?x] => let y := eval vm_compute in (opposite_side x) in change (opposite_side x) with y end; lia.
Qed.
Lemma opp_across s : 0 <= s < 6 -> opposite_side s = across s.
Proof. intros H. sides H; reflexivity. Qed.

Lemma within_iff lo hi x y z : within lo hi (x, y, z) = true <->
  lo 0 <= x < hi 0 /\ lo 1 <= y < hi 1 /\ lo 2 <= z < hi 2.
Proof. unfold within. rewrite !andb_true_iff, !Z.leb_le, !Z.ltb_lt. tauto. Qed.

Lemma buffer_opp dims g E s k : 0 <= s < 6 -> buffer_extents dims g E (opposite_side s) k = buffer_extents dims g E s k.
Proof. intros H. sides H; reflexivity. Qed.
Lemma within_opp dims g E s c : 0 <= s < 6 ->
  within (fun _ => 0) (buffer_extents dims g E (opposite_side s)) c = within (fun _ => 0) (buffer_extents dims g E s) c.
Proof. intros H. destruct c as [[x y] z]. unfold within. now rewrite !buffer_opp by exact H. Qed.

(** The buffers have the extents of both boxes of their side. *)
Lemma buffer_extract dims g E s k : 0 <= s < 6 -> 0 <= k < 3 ->
  minus3 (extract_end dims g E s) (extract_start dims g E s) k = buffer_extents dims g E s k.
Proof.
  intros H Hk. unfold minus3, extract_end, extract_start, buffer_extents, vec.
  assert (k = 0 \/ k = 1 \/ k = 2) as [-> |[-> | ->]] by lia; sides H; cbn [Z.eqb Pos.eqb Z.ltb Z.compare Pos.compare Pos.compare_cont b2z negb]; ring.
Qed.
Lemma buffer_insert dims g E s k : 0 <= s < 6 -> 0 <= k < 3 ->
  minus3 (insert_end dims g E s) (insert_start dims g E s) k = buffer_extents dims g E s k.
Proof.
  intros H Hk. unfold minus3, insert_end, insert_start, buffer_extents, vec.
  assert (k = 0 \/ k = 1 \/ k = 2) as [-> |[-> | ->]] by lia; sides H; cbn [Z.eqb Pos.eqb Z.ltb Z.compare Pos.compare Pos.compare_cont b2z negb]; ring.
Qed.

Lemma cell_is_iff a b : cell_is a b = true <-> a = b.
Proof.
  destruct a as [[x y] z], b as [[x' y'] z']. unfold cell_is. rewrite !andb_true_iff, !Z.eqb_eq.
  split; [intros [[-> ->] ->]; reflexivity|intros E; injection E; auto].
Qed.
Lemma box_cells_In n c : In c (box_cells n) <-> within (fun _ => 0) n c = true.
Proof.
  destruct c as [[x y] z]. rewrite within_iff. unfold box_cells. rewrite in_flat_map. split.
  - intros (x0 & Hx & H). apply in_flat_map in H. destruct H as (y0 & Hy & H). apply in_map_iff in H.
    destruct H as (z0 & Ez & Hz). injection Ez as -> -> ->. apply zrange_In in Hx, Hy, Hz. auto.
  - intros (Hx & Hy & Hz). exists x. split; [apply zrange_In; auto|]. apply in_flat_map. exists y. split; [apply zrange_In; auto|].
    apply in_map. apply zrange_In; auto.
Qed.

Section Run.
Context {A : Type}.
Variables (dims g : Z) (E : ivec) (nvars np : Z) (nb : Z -> Z -> Z) (reduce : nat -> bool) (u : nat -> Z -> Z -> cell -> A).
Hypothesis Hdims : 1 <= dims <= 3.
Hypothesis Hsym : forall a s, 0 <= a < np -> 0 <= s < 2 * dims -> nb a s <> -1 ->
  0 <= nb a s < np /\ nb (nb a s) (opposite_side s) = a.
Let ext := extracted (A := A) dims g E.
Let elem := is_element dims g E nvars np nb.

Lemma has_iff r s : cuda_has_side (nb r) s = true <-> nb r s <> -1.
Proof. unfold cuda_has_side. rewrite negb_true_iff, Z.eqb_neq. tauto. Qed.
Definition element (r v s : Z) (c : cell) : Prop :=
  0 <= r < np /\ 0 <= v < nvars /\ 0 <= s < 2 * dims /\ nb r s <> -1 /\ within (fun _ => 0) (buffer_extents dims g E s) c = true.
Lemma elem_iff r v s c : elem r v s c = true <-> element r v s c.
Proof.
  unfold elem, is_element, element. rewrite !andb_true_iff, !Z.leb_le, !Z.ltb_lt, has_iff. tauto.
Qed.
Lemma element_opp r v s c : element r v s c -> element (nb r s) v (opposite_side s) c.
Proof.
  intros (Hr & Hv & Hs & Hn & Hw). destruct (Hsym r s Hr Hs Hn) as (Hb & Eb).
  split; [exact Hb|]. split; [exact Hv|]. split; [apply opp_range; auto|]. split; [lia|].
  rewrite within_opp by lia. exact Hw.
Qed.
Lemma element_back r v s c : element r v s c -> nb (nb r s) (opposite_side s) = r /\ opposite_side (opposite_side s) = s.
Proof. intros (Hr & Hv & Hs & Hn & Hw). split; [apply Hsym; auto|apply opp_opp; lia]. Qed.
Lemma every_iff r f : 0 <= r < np ->
  every_element dims g E nvars nb r f = true <-> (forall v s c, element r v s c -> f v s c = true).
Proof.
  intros Hr. unfold every_element. rewrite forallb_forall. split.
  - intros H v s c (_ & Hv & Hs & Hn & Hw). specialize (H v (proj2 (zrange_In _ _ _) Hv)). rewrite forallb_forall in H.
    specialize (H s (proj2 (zrange_In _ _ _) Hs)). apply has_iff in Hn. rewrite Hn in H. cbn in H. rewrite forallb_forall in H.
    apply H. now apply box_cells_In.
  - intros H v Hv. apply zrange_In in Hv. apply forallb_forall. intros s Hs. apply zrange_In in Hs.
    destruct (cuda_has_side (nb r) s) eqn:Eh; [|reflexivity]. cbn. apply forallb_forall. intros c Hc.
    apply H. split; [exact Hr|]. split; [exact Hv|]. split; [exact Hs|]. split; [now apply has_iff|]. now apply box_cells_In.
Qed.

(** Updates of the network. *)
Lemma net_upd {B} (f : nat -> Z -> Z -> Z -> cell -> B) k a v s c (x : B) k' a' v' s' c' :
  updk f k (upd (f k) a (upd (f k a) v (upd (f k a v) s (updc (f k a v s) c x)))) k' a' v' s' c' =
  if Nat.eqb k' k && (a' =? a) && (v' =? v) && (s' =? s) && cell_is c' c then x else f k' a' v' s' c'.
Proof.
  unfold updk, upd, updc. destruct (Nat.eqb_spec k' k) as [->|]; [|reflexivity].
  destruct (Z.eqb_spec a' a) as [->|]; [|reflexivity]. destruct (Z.eqb_spec v' v) as [->|]; [|reflexivity].
  destruct (Z.eqb_spec s' s) as [->|]; [|reflexivity]. reflexivity.
Qed.
Lemma buf_upd {B} (f : Z -> Z -> Z -> cell -> B) a v s c (x : B) a' v' s' c' :
  upd f a (upd (f a) v (upd (f a v) s (updc (f a v s) c x))) a' v' s' c' =
  if (a' =? a) && (v' =? v) && (s' =? s) && cell_is c' c then x else f a' v' s' c'.
Proof.
  unfold upd, updc.
  destruct (Z.eqb_spec a' a) as [->|]; [|reflexivity]. destruct (Z.eqb_spec v' v) as [->|]; [|reflexivity].
  destruct (Z.eqb_spec s' s) as [->|]; [|reflexivity]. reflexivity.
Qed.

Record inv (st : xstate (A := A)) : Prop := mkinv {
  i_send : forall r v s c, element r v s c ->
    match x_stage st r with
    | Begin => match x_round st r with O => True | S k => x_send st r v s c = ext s (u k r v) c end
    | _ => x_send st r v s c = ext s (u (x_round st r) r v) c
    end;
  i_read : forall k a v s c, element a v s c -> x_net st k a v s c <> Waiting -> posted st a k = true;
  i_done : forall k a v s c, element a v s c -> x_net st k a v s c = Done -> posted st (nb a s) k = true;
  i_val : forall k a v s c x, element a v s c -> reduce k = true -> x_net st k a v s c = Moving x -> x = ext s (u k a v) c;
  i_recv : forall a v s c, element a v s c -> x_stage st (nb a s) = Posted -> reduce (x_round st (nb a s)) = true ->
    x_net st (x_round st (nb a s)) a v s c = Done ->
    x_recv st (nb a s) v (opposite_side s) c = ext s (u (x_round st (nb a s)) a v) c;
  i_fin : forall k a v s c, element a v s c -> finished st (nb a s) k = true -> x_net st k a v s c = Done;
  i_bar : forall k a q, reduce k = true -> 0 <= a < np -> 0 <= q < np -> (k < x_round st a)%nat -> finished st q k = true;
  i_red : forall r, x_stage st r = Reducing -> reduce (x_round st r) = true;
  i_out : forall k r, reduce k = true -> 0 <= r < np -> finished st r k = true ->
    forall v, 0 <= v < nvars -> exists last buf, x_out st k r v = inserted dims g E (nb r) last buf (u k r v) /\
      forall s c, element r v s c -> buf s c = ext (opposite_side s) (u k (nb r s) v) c
}.

Lemma inv_start zero : inv (xstart zero).
Proof.
  assert (F : forall r k, finished (xstart zero) r k = false)
    by (intros; unfold finished; cbn; destruct k; reflexivity).
  constructor; cbn [xstart x_round x_stage x_send x_recv x_net x_out]; intros; rewrite ?F in *; auto; try congruence; try lia.
Qed.

(** Stages as numbers. *)
Lemma posted_iff (st : xstate (A := A)) r k : posted st r k = true <->
  (k < x_round st r)%nat \/ (k = x_round st r /\ (x_stage st r = Posted \/ x_stage st r = Reducing)).
Proof.
  unfold posted. rewrite orb_true_iff, andb_true_iff, Nat.ltb_lt, Nat.eqb_eq.
  destruct (x_stage st r); intuition congruence.
Qed.
Lemma finished_iff (st : xstate (A := A)) r k : finished st r k = true <->
  (k < x_round st r)%nat \/ (k = x_round st r /\ x_stage st r = Reducing).
Proof.
  unfold finished. rewrite orb_true_iff, andb_true_iff, Nat.ltb_lt, Nat.eqb_eq.
  destruct (x_stage st r); intuition congruence.
Qed.
Lemma is_process_iff r : is_process np r = true <-> 0 <= r < np.
Proof. unfold is_process. rewrite andb_true_iff, Z.leb_le, Z.ltb_lt. tauto. Qed.

Ltac split_guard H :=
  repeat match type of H with (_ && _ = true) => let H2 := fresh "G" in apply andb_true_iff in H; destruct H as [H H2] end.
Ltac proj := cbn [x_round x_stage x_send x_recv x_net x_out] in *.

Lemma inv_extract r st st' : inv st -> exec dims g E nvars np nb reduce u (EExtract r) st = Some st' -> inv st'.
Proof.
  intros I X. cbn [exec] in X. destruct (is_process np r && _) eqn:G; [|discriminate]. injection X as <-.
  apply andb_true_iff in G. destruct G as [G1 G2]. apply is_process_iff in G1.
  assert (Sb : x_stage st r = Begin) by (destruct (x_stage st r); congruence). clear G2.
  match goal with |- inv ?s => set (st' := s) end.
  assert (P : forall q k, posted st' q k = posted st q k).
  { intros q k. unfold posted, st'; proj. unfold upd. destruct (Z.eqb_spec q r) as [->|]; [rewrite Sb|]; reflexivity. }
  assert (F : forall q k, finished st' q k = finished st q k).
  { intros q k. unfold finished, st'; proj. unfold upd. destruct (Z.eqb_spec q r) as [->|]; [rewrite Sb|]; reflexivity. }
  constructor; intros; rewrite ?P, ?F in *.
  - unfold st'; proj. unfold upd. destruct (Z.eqb_spec r0 r) as [->|]; [|apply (i_send st I); assumption].
    destruct H as (_ & _ & _ & Hn & _). apply has_iff in Hn. rewrite Hn. reflexivity.
  - eapply (i_read st I); eauto.
  - eapply (i_done st I); eauto.
  - eapply (i_val st I); eauto.
  - unfold st' in *; proj. unfold upd in H0. destruct (Z.eqb_spec (nb a s) r) as [Eb|]; [discriminate|]. apply (i_recv st I); assumption.
  - eapply (i_fin st I); eauto.
  - eapply (i_bar st I k a q); eauto.
  - unfold st' in *; proj. unfold upd in H. destruct (Z.eqb_spec r0 r); [discriminate|]. apply (i_red st I); assumption.
  - apply (i_out st I); assumption.
Qed.

Lemma inv_post r st st' : inv st -> exec dims g E nvars np nb reduce u (EPost r) st = Some st' -> inv st'.
Proof.
  intros I X. cbn [exec] in X. destruct (is_process np r && _) eqn:G; [|discriminate]. injection X as <-.
  apply andb_true_iff in G. destruct G as [G1 G2]. apply is_process_iff in G1.
  assert (Sb : x_stage st r = Extracted) by (destruct (x_stage st r); congruence). clear G2.
  match goal with |- inv ?s => set (st' := s) end.
  assert (P : forall q k, posted st q k = true -> posted st' q k = true).
  { intros q k. rewrite !posted_iff. unfold st'; proj. unfold upd. destruct (Z.eqb_spec q r) as [->|]; [rewrite Sb|]; intuition congruence. }
  assert (F : forall q k, finished st' q k = finished st q k).
  { intros q k. unfold finished, st'; proj. unfold upd. destruct (Z.eqb_spec q r) as [->|]; [rewrite Sb|]; reflexivity. }
  constructor; intros; rewrite ?F in *.
  - unfold st'; proj. unfold upd. destruct (Z.eqb_spec r0 r) as [->|]; [|apply (i_send st I); assumption].
    pose proof (i_send st I r v s c H) as Q. rewrite Sb in Q. exact Q.
  - apply P. eapply (i_read st I); eauto.
  - apply P. eapply (i_done st I); eauto.
  - eapply (i_val st I); eauto.
  - unfold st' in *; proj. unfold upd in H0. destruct (Z.eqb_spec (nb a s) r) as [Eb|]; [|apply (i_recv st I); assumption].
    exfalso. pose proof (i_done st I _ _ _ _ _ H H2) as Q. apply posted_iff in Q. rewrite Eb, Sb in Q. destruct Q as [Q|(_ & [Q|Q])]; [lia|discriminate|discriminate].
  - eapply (i_fin st I); eauto.
  - eapply (i_bar st I k a q); eauto.
  - unfold st' in *; proj. unfold upd in H. destruct (Z.eqb_spec r0 r); [discriminate|]. apply (i_red st I); assumption.
  - apply (i_out st I); assumption.
Qed.

Lemma inv_leave r st st' : inv st -> exec dims g E nvars np nb reduce u (ELeave r) st = Some st' -> inv st'.
Proof.
  intros I X. cbn [exec] in X. destruct (is_process np r && _ && _) eqn:G; [|discriminate]. injection X as <-.
  apply andb_true_iff in G. destruct G as [G G3]. apply andb_true_iff in G. destruct G as [G1 G2]. apply is_process_iff in G1.
  assert (Sb : x_stage st r = Reducing) by (destruct (x_stage st r); congruence). clear G2.
  match goal with |- inv ?s => set (st' := s) end.
  assert (P : forall q k, posted st' q k = true <-> posted st q k = true).
  { intros q k. rewrite !posted_iff. unfold st'; proj. unfold upd. destruct (Z.eqb_spec q r) as [->|]; [rewrite Sb|tauto].
    split; [intros [H|(_ & [H|H])]; [|discriminate|discriminate]|]; [|lia].
    destruct (Nat.eq_dec k (x_round st r)); [right; auto|left; lia]. }
  assert (F : forall q k, finished st' q k = true <-> finished st q k = true).
  { intros q k. rewrite !finished_iff. unfold st'; proj. unfold upd. destruct (Z.eqb_spec q r) as [->|]; [rewrite Sb|tauto].
    split; [intros [H|(_ & H)]; [|discriminate]|]; [|lia].
    destruct (Nat.eq_dec k (x_round st r)); [right; auto|left; lia]. }
  constructor; intros.
  - unfold st'; proj. unfold upd. destruct (Z.eqb_spec r0 r) as [->|]; [|apply (i_send st I); assumption].
    pose proof (i_send st I r v s c H) as Q. rewrite Sb in Q. exact Q.
  - apply P. eapply (i_read st I); eauto.
  - apply P. eapply (i_done st I); eauto.
  - eapply (i_val st I); eauto.
  - unfold st' in *; proj. unfold upd in *. destruct (Z.eqb_spec (nb a s) r) as [Eb|]; [discriminate|apply (i_recv st I); assumption].
  - eapply (i_fin st I); eauto. now apply F.
  - apply F. unfold st' in *; proj. unfold upd in *. destruct (Z.eqb_spec a r) as [Eb|]; [|eapply (i_bar st I k a q); eauto].
    destruct (Nat.eq_dec k (x_round st r)) as [->|]; [|apply (i_bar st I k r q); auto; lia].
    rewrite forallb_forall in G3. apply G3. now apply zrange_In.
  - unfold st' in *; proj. unfold upd in *. destruct (Z.eqb_spec r0 r); [discriminate|]. apply (i_red st I); assumption.
  - apply (i_out st I); auto. now apply F.
Qed.

Lemma inv_insert r last st st' : inv st -> exec dims g E nvars np nb reduce u (EInsert r last) st = Some st' -> inv st'.
Proof.
  intros I X. cbn [exec] in X. destruct (is_process np r && _ && _ && _) eqn:G; [|discriminate]. injection X as <-.
  apply andb_true_iff in G. destruct G as [G _]. apply andb_true_iff in G. destruct G as [G G3]. apply andb_true_iff in G. destruct G as [G1 G2]. apply is_process_iff in G1.
  assert (Sb : x_stage st r = Posted) by (destruct (x_stage st r); congruence). clear G2.
  set (k0 := x_round st r) in *.
  pose proof (proj1 (every_iff r _ G1) G3) as All. cbv beta in All. clear G3.
  match goal with |- inv ?s => set (st' := s) end.
  assert (P : forall q k, posted st' q k = true <-> posted st q k = true).
  { intros q k. rewrite !posted_iff. unfold st'; proj. destruct (reduce k0); unfold upd;
    (destruct (Z.eqb_spec q r) as [->|]; [rewrite Sb; fold k0|tauto]); [intuition|].
    split; [intros [H|(_ & [H|H])]; [|discriminate|discriminate]|]; [|lia].
    destruct (Nat.eq_dec k k0); [right; auto|left; lia]. }
  assert (F : forall q k, finished st' q k = true <-> finished st q k = true \/ (q = r /\ k = k0)).
  { intros q k. rewrite !finished_iff. unfold st'; proj. destruct (reduce k0); unfold upd;
    (destruct (Z.eqb_spec q r) as [->|]; [rewrite Sb; fold k0|tauto]).
    - split; [intros [H|(H & _)]; auto|intros [[H|(_ & H)]|(_ & H)]; auto; discriminate].
    - split; [intros [H|(_ & H)]; [|discriminate]|]; [|intros [[H|(_ & H)]|(_ & H)]; [left; lia|discriminate|left; lia]].
      destruct (Nat.eq_dec k k0); [right; auto|left; left; lia]. }
  assert (Rd : forall a v s c, element a v s c -> nb a s = r -> x_net st k0 a v s c = Done).
  { intros a v s c He Eb. destruct (element_back a v s c He) as (B1 & B2). pose proof (element_opp a v s c He) as Ho. rewrite Eb in *.
    specialize (All v (opposite_side s) c Ho). rewrite B1, B2 in All. destruct (x_net st k0 a v s c); [discriminate|discriminate|reflexivity]. }
  constructor; intros.
  - pose proof (i_send st I r0 v s c H) as Q. unfold st'; proj. destruct (reduce k0); unfold upd;
    (destruct (Z.eqb_spec r0 r) as [->|]; [|exact Q]); rewrite Sb in Q; exact Q.
  - apply P. eapply (i_read st I); eauto.
  - apply P. eapply (i_done st I); eauto.
  - eapply (i_val st I); eauto.
  - unfold st' in *; proj. destruct (reduce k0); unfold upd in *;
    (destruct (Z.eqb_spec (nb a s) r) as [Eb|]; [discriminate|apply (i_recv st I); assumption]).
  - apply F in H0. destruct H0 as [H0|(Eb & ->)]; [eapply (i_fin st I); eauto|]. apply Rd; assumption.
  - apply F. assert ((k < x_round st a)%nat \/ (a = r /\ k = k0 /\ reduce k0 = false)) as [Q|(-> & -> & Q)]; [|left; eapply (i_bar st I k a q); eauto|congruence].
    unfold st' in H2; proj. destruct (reduce k0); [left; exact H2|]. unfold upd in H2. destruct (Z.eqb_spec a r) as [->|]; [|left; exact H2].
    destruct (Nat.eq_dec k k0); [right; auto|left]. fold k0. lia.
  - revert H. unfold st'; proj. destruct (reduce k0) eqn:Er; unfold upd; (destruct (Z.eqb_spec r0 r) as [->|]; [|apply (i_red st I)]); intros H.
    + exact Er.
    + discriminate.
  - unfold st' at 1; proj. unfold updk. destruct (Nat.eqb_spec k k0) as [->|Nk].
    + unfold upd. destruct (Z.eqb_spec r0 r) as [->|Nr].
      * exists (last v), (x_recv st r v). split; [reflexivity|]. intros s c He. destruct (element_back r v s c He) as (B1 & B2).
        pose proof (element_opp r v s c He) as Ho. pose proof (i_recv st I (nb r s) v (opposite_side s) c Ho) as Q.
        rewrite B1, B2, Sb in Q. fold k0 in Q. apply Q; auto.
      * apply (i_out st I); auto. apply F in H1. destruct H1 as [H1|(H1 & _)]; [exact H1|congruence].
    + apply (i_out st I); auto. apply F in H1. destruct H1 as [H1|(_ & H1)]; [exact H1|congruence].
Qed.

Lemma inv_read k a v s c st st' : inv st -> exec dims g E nvars np nb reduce u (ERead k a v s c) st = Some st' -> inv st'.
Proof.
  intros I X. cbn [exec] in X. destruct (is_element dims g E nvars np nb a v s c && _ && _) eqn:G; [|discriminate]. injection X as <-.
  apply andb_true_iff in G. destruct G as [G G3]. apply andb_true_iff in G. destruct G as [G1 G2].
  apply (proj1 (elem_iff a v s c)) in G1.
  assert (Nw : x_net st k a v s c = Waiting) by (destruct (x_net st k a v s c); [reflexivity|discriminate|discriminate]). clear G3.
  match goal with |- inv ?s0 => set (st' := s0) end.
  assert (N : forall k' a' v' s' c', x_net st' k' a' v' s' c' =
     if Nat.eqb k' k && (a' =? a) && (v' =? v) && (s' =? s) && cell_is c' c then Moving (x_send st a v s c) else x_net st k' a' v' s' c').
  { intros. unfold st'; proj. apply net_upd. }
  assert (N' : forall k' a' v' s' c', x_net st' k' a' v' s' c' = Done <-> x_net st k' a' v' s' c' = Done).
  { intros. rewrite N. destruct (Nat.eqb k' k && (a' =? a) && (v' =? v) && (s' =? s) && cell_is c' c) eqn:Eq; [|tauto].
    split_guard Eq. apply Nat.eqb_eq in Eq.
    repeat match goal with H : cell_is _ _ = true |- _ => apply cell_is_iff in H | H : (_ =? _) = true |- _ => apply Z.eqb_eq in H end.
    subst. rewrite Nw. split; discriminate. }
  assert (P : forall q k', posted st' q k' = posted st q k') by reflexivity.
  assert (F : forall q k', finished st' q k' = finished st q k') by reflexivity.
  constructor; intros.
  - apply (i_send st I); assumption.
  - rewrite N in H0. destruct (Nat.eqb k0 k && (a0 =? a) && (v0 =? v) && (s0 =? s) && cell_is c0 c) eqn:Eq; [|rewrite P; eapply (i_read st I); eauto].
    split_guard Eq. apply Nat.eqb_eq in Eq. repeat match goal with H : (_ =? _) = true |- _ => apply Z.eqb_eq in H end. subst. exact G2.
  - rewrite P. apply N' in H0. eapply (i_done st I); eauto.
  - rewrite N in H1. destruct (Nat.eqb k0 k && (a0 =? a) && (v0 =? v) && (s0 =? s) && cell_is c0 c) eqn:Eq; [|eapply (i_val st I); eauto].
    split_guard Eq. apply Nat.eqb_eq in Eq.
    repeat match goal with H : cell_is _ _ = true |- _ => apply cell_is_iff in H | H : (_ =? _) = true |- _ => apply Z.eqb_eq in H end.
    subst. injection H1 as <-. pose proof (i_send st I a v s c H) as Q. apply posted_iff in G2.
    destruct G2 as [L|(Ek & St)].
    + exfalso. destruct H as (Ha & Hv & Hs & Hn & Hw). destruct (Hsym a s Ha Hs Hn) as (Hb & _).
      pose proof (i_bar st I k a (nb a s) H0 Ha Hb L) as Fb. rewrite (i_fin st I k a v s c) in Nw; [discriminate| |exact Fb].
      repeat split; assumption || lia.
    + rewrite Ek. destruct St as [St|St]; rewrite St in Q; exact Q.
  - apply N' in H2. apply (i_recv st I); assumption.
  - apply N'. eapply (i_fin st I); eauto.
  - rewrite F. eapply (i_bar st I k0 a0 q); eauto.
  - apply (i_red st I); assumption.
  - apply (i_out st I); auto.
Qed.

Lemma inv_write k a v s c st st' : inv st -> exec dims g E nvars np nb reduce u (EWrite k a v s c) st = Some st' -> inv st'.
Proof.
  intros I X. cbn [exec] in X. destruct (is_element dims g E nvars np nb a v s c && _ && _ && _ && _) eqn:G; [|discriminate].
  destruct (x_net st k a v s c) as [|x|] eqn:Nm; [discriminate| |discriminate]. injection X as <-.
  split_guard G. apply (proj1 (elem_iff a v s c)) in G. rename G into He. rename G0 into Gp.
  set (b := nb a s) in *.
  match goal with |- inv ?s0 => set (st' := s0) end.
  assert (Hit : forall k' a' v' s' c', Nat.eqb k' k && (a' =? a) && (v' =? v) && (s' =? s) && cell_is c' c = true -> k' = k /\ a' = a /\ v' = v /\ s' = s /\ c' = c).
  { intros k' a' v' s' c' Eq. split_guard Eq. apply Nat.eqb_eq in Eq.
    repeat match goal with H : cell_is _ _ = true |- _ => apply cell_is_iff in H | H : (_ =? _) = true |- _ => apply Z.eqb_eq in H end. auto. }
  assert (N : forall k' a' v' s' c', x_net st' k' a' v' s' c' =
     if Nat.eqb k' k && (a' =? a) && (v' =? v) && (s' =? s) && cell_is c' c then Done else x_net st k' a' v' s' c').
  { intros. unfold st'; proj. apply net_upd. }
  assert (P : forall q k', posted st' q k' = posted st q k') by reflexivity.
  assert (F : forall q k', finished st' q k' = finished st q k') by reflexivity.
  constructor; intros.
  - apply (i_send st I); assumption.
  - rewrite N in H0. destruct (Nat.eqb k0 k && _ && _ && _ && _) eqn:Eq; [|rewrite P; eapply (i_read st I); eauto].
    apply Hit in Eq. destruct Eq as (-> & -> & -> & -> & ->). rewrite P. apply (i_read st I k a v s c He). congruence.
  - rewrite N in H0. destruct (Nat.eqb k0 k && _ && _ && _ && _) eqn:Eq; [|rewrite P; eapply (i_done st I); eauto].
    apply Hit in Eq. destruct Eq as (-> & -> & -> & -> & ->). rewrite P. fold b. assumption.
  - rewrite N in H1. destruct (Nat.eqb k0 k && _ && _ && _ && _) eqn:Eq; [discriminate|]. eapply (i_val st I); eauto.
  - (* the receive buffer *)
    assert (Kb : k = x_round st b).
    { apply posted_iff in Gp. destruct Gp as [L|(Ek & _)]; [|exact Ek]. exfalso.
      pose proof (i_fin st I k a v s c He) as Q. fold b in Q. rewrite Nm in Q. discriminate Q. apply finished_iff. auto. }
    assert (Sg : forall q, x_stage st' q = x_stage st q) by reflexivity. assert (Rg : forall q, x_round st' q = x_round st q) by reflexivity.
    rewrite Sg in H0. rewrite Rg in *.
    assert (Rv : x_recv st' (nb a0 s0) v0 (opposite_side s0) c0 =
      if (nb a0 s0 =? b) && (v0 =? v) && (opposite_side s0 =? opposite_side s) && cell_is c0 c then x else x_recv st (nb a0 s0) v0 (opposite_side s0) c0).
    { unfold st'; proj. apply buf_upd. }
    rewrite Rv. rewrite N in H2.
    destruct ((nb a0 s0 =? b) && (v0 =? v) && (opposite_side s0 =? opposite_side s) && cell_is c0 c) eqn:Eq.
    + split_guard Eq. repeat match goal with H : cell_is _ _ = true |- _ => apply cell_is_iff in H | H : (_ =? _) = true |- _ => apply Z.eqb_eq in H end.
      destruct (element_back _ _ _ _ H) as (B1 & B2). destruct (element_back _ _ _ _ He) as (B3 & B4).
      assert (s0 = s) by congruence. subst s0. assert (a0 = a) by (fold b in B3; congruence). subst a0 v0 c0. fold b. rewrite <- Kb.
      apply (i_val st I k a v s c x He); [|exact Nm]. rewrite Kb. fold b in H1. exact H1.
    + destruct (Nat.eqb (x_round st (nb a0 s0)) k && _ && _ && _ && _) eqn:Eq2; [|apply (i_recv st I); assumption].
      apply Hit in Eq2. destruct Eq2 as (_ & -> & -> & -> & ->). fold b in Eq. rewrite !Z.eqb_refl in Eq. cbn [andb] in Eq.
      rewrite (proj2 (cell_is_iff c c) eq_refl) in Eq. discriminate.
  - rewrite N. destruct (Nat.eqb k0 k && _ && _ && _ && _); [reflexivity|]. eapply (i_fin st I); eauto.
  - rewrite F. eapply (i_bar st I k0 a0 q); eauto.
  - apply (i_red st I); assumption.
  - apply (i_out st I); auto.
Qed.

Theorem inv_happens zero st : happens dims g E nvars np nb reduce u zero st -> inv st.
Proof.
  intros (es & H). assert (forall es s0, inv s0 -> forall s1, execs dims g E nvars np nb reduce u es s0 = Some s1 -> inv s1) as Q.
  { clear es H. induction es as [|e es IH]; cbn [execs]; intros s0 I s1 H; [injection H as <-; exact I|].
    destruct (exec dims g E nvars np nb reduce u e s0) as [s2|] eqn:X; [|discriminate]. apply (IH s2); [|exact H].
    destruct e; [eapply inv_extract|eapply inv_post|eapply inv_read|eapply inv_write|eapply inv_insert|eapply inv_leave]; eassumption. }
  eapply Q; [apply (inv_start zero)|exact H].
Qed.
End Run.
