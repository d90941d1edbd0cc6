(** The parallel loops of the ENO reconstructions. *)
From Coq Require Import ZArith Reals List Bool Lia Lra Permutation FunctionalExtensionality.
From Verif Require Import M_Base L_Base M_Vec M_Boundary M_Flux M_Scalar M_Recon M_Eno M_TecnoEno M_Omp M_OmpEno L_Omp L_OmpFlux.
Import ListNotations.
Open Scope Z_scope.

Section Base.
Context {V : cvars}.
Variables (nx ny nz : Z).
Notation size := (L_OmpFlux.area nx ny nz).
Notation dims3 := (dims3 nx ny nz).
Notation epr := (prog (V + R) unit).

Definition holds_v (m : shared (V + R)) (a : Z) (v : vol V) : Prop := dims3 v /\ forall i, m a i = inl (vdat v i).
Definition holds_r (m : shared (V + R)) (a : Z) (v : vol R) : Prop := dims3 v /\ forall i, m a i = Datatypes.inr (vdat v i).

Lemma run_pv m a (v : vol V) x y z b k : holds_v m a v -> vload v x y z = Ok b ->
  run size (p_v nx ny nz a x y z k) m = run size (k b) m.
Proof.
  intros [Hd Hm]. unfold vload, p_v, pload. rewrite (inb_cell nx ny nz v x y z Hd).
  destruct (cell_in nx ny nz x y z) eqn:E; [|discriminate]. intros H. injection H as <-.
  destruct Hd as (-> & -> & _). cbn [run]. rewrite (inside_cell nx ny nz a x y z E), Hm. reflexivity.
Qed.
Lemma run_pr m a (v : vol R) x y z b k : holds_r m a v -> vload v x y z = Ok b ->
  run size (p_r nx ny nz a x y z k) m = run size (k b) m.
Proof.
  intros [Hd Hm]. unfold vload, p_r, pload. rewrite (inb_cell nx ny nz v x y z Hd).
  destruct (cell_in nx ny nz x y z) eqn:E; [|discriminate]. intros H. injection H as <-.
  destruct Hd as (-> & -> & _). cbn [run]. rewrite (inside_cell nx ny nz a x y z E), Hm. reflexivity.
Qed.
Lemma run_put {B} (inj : B -> V + R) m a (v v' : vol B) x y z b (k : epr) : dims3 v -> vstore v x y z b = Ok v' ->
  run size (pstore nx ny nz a x y z (inj b) k) m = run size k (put m a (index nx ny x y z) (inj b)) /\
  dims3 v' /\ forall j, vdat v' j = if j =? index nx ny x y z then b else vdat v j.
Proof.
  intros Hd. unfold vstore, pstore. rewrite (inb_cell nx ny nz v x y z Hd).
  destruct (cell_in nx ny nz x y z) eqn:E; [|discriminate]. intros H. injection H as <-.
  destruct Hd as (E1 & E2 & E3). cbn [run]. rewrite (inside_cell nx ny nz a x y z E).
  split; [reflexivity|]. split; [repeat split; assumption|]. cbn [vdat]. rewrite E1, E2. reflexivity.
Qed.
Lemma run_pvs m a (v : vol V) (hx hy hz : Z -> Z) l : holds_v m a v -> forall us k,
  map_res (fun j => vload v (hx j) (hy j) (hz j)) l = Ok us ->
  run size (p_vs nx ny nz a (map (fun j => (hx j, hy j, hz j)) l) k) m = run size (k us) m.
Proof.
  intros Hh. induction l as [|j l IH]; cbn [map map_res p_vs]; intros us k H.
  - injection H as <-. reflexivity.
  - destruct (vload v (hx j) (hy j) (hz j)) as [b| |] eqn:E; cbn in H; try discriminate.
    destruct (map_res _ l) as [bs| |] eqn:E2; cbn in H; try discriminate. injection H as <-.
    rewrite (run_pv m a v _ _ _ b _ Hh E). apply (IH bs (fun vs => k (b :: vs))). reflexivity.
Qed.

Fixpoint levels_at (m : shared (V + R)) (a : Z) (ws : list (vol R)) : Prop :=
  match ws with [] => True | w :: ws => holds_r m a w /\ levels_at m (a + 1) ws end.
Lemma levels_at_nth m ws : forall a,
  (forall j, (j < length ws)%nat -> holds_r m (a + Z.of_nat j) (nth j ws (zero_vol 0 0 0))) -> levels_at m a ws.
Proof.
  induction ws as [|w ws IH]; intros a H; cbn; auto. split.
  - specialize (H 0%nat). cbn in H. rewrite Z.add_0_r in H. apply H. lia.
  - apply IH. intros j Hj. specialize (H (S j)). cbn [nth length] in H.
    replace (a + 1 + Z.of_nat j) with (a + Z.of_nat (S j)) by lia. apply H. lia.
Qed.
Lemma run_shift d m x y z k : forall ws a s s', levels_at m a ws -> count_shift d ws x y z s = Ok s' ->
  run size (p_shift nx ny nz d (length ws) a x y z s k) m = run size (k s') m.
Proof.
  induction ws as [|w ws IH]; intros a s s' Hl H; cbn [count_shift p_shift length] in *.
  - injection H as <-. reflexivity.
  - destruct Hl as [Hw Hl]. destruct (vload w x y z) as [r| |] eqn:Er; cbn [bind] in H; try discriminate.
    destruct (vload w (x - _) _ _) as [l| |] eqn:El; cbn [bind] in H; try discriminate.
    rewrite (run_pr m a w _ _ _ r _ Hw Er), (run_pr m a w _ _ _ l _ Hw El). apply IH; assumption.
Qed.

(** Accesses. *)
Lemma accs_pv a x y z k w b j : accs (p_v (V := V) nx ny nz a x y z k) w b j ->
  (w = false /\ b = a) \/ exists v, accs (k v) w b j.
Proof.
  unfold p_v. intros H. apply accs_pload in H. destruct H as [_ [(? & ? & _)|(e & H)]]; [auto|]. destruct e; cbn in H; eauto; inversion H.
Qed.
Lemma accs_pr a x y z k w b j : accs (p_r (V := V) nx ny nz a x y z k) w b j ->
  (w = false /\ b = a) \/ exists v, accs (k v) w b j.
Proof.
  unfold p_r. intros H. apply accs_pload in H. destruct H as [_ [(? & ? & _)|(e & H)]]; [auto|]. destruct e; cbn in H; eauto; inversion H.
Qed.
Lemma accs_pvs a cs : forall k w b j, accs (p_vs (V := V) nx ny nz a cs k) w b j ->
  (w = false /\ b = a) \/ exists vs, accs (k vs) w b j.
Proof.
  induction cs as [|[[x y] z] cs IH]; cbn; intros k w b j H; [right; eauto|].
  apply accs_pv in H. destruct H as [?|(v & H)]; [auto|].
  destruct (IH _ _ _ _ H) as [?|(vs & ?)]; [auto|]. right; eauto.
Qed.
Lemma accs_shift d x y z k w b j : forall n a s, accs (p_shift (V := V) nx ny nz d n a x y z s k) w b j ->
  (w = false /\ a <= b) \/ exists s', accs (k s') w b j.
Proof.
  induction n as [|n IH]; cbn [p_shift]; intros a s H; [right; eauto|].
  apply accs_pr in H. destruct H as [(? & ?)|(v & H)]; [left; split; [auto|lia]|].
  apply accs_pr in H. destruct H as [(? & ?)|(v' & H)]; [left; split; [auto|lia]|].
  destruct (IH _ _ H) as [(? & ?)|?]; [left; split; [auto|lia]|auto].
Qed.
End Base.

Section Eno.
Context {V : cvars}.
Variables (nx ny nz : Z).
Notation size := (L_OmpFlux.area nx ny nz).
Notation dims3 := (dims3 nx ny nz).

Definition rel_eno (u l r : vol V) (dd : list (vol R)) (m : shared (V + R)) : Prop :=
  dims3 u /\ dims3 l /\ dims3 r /\ Forall dims3 dd /\ forall a i, m a i = eno_mem u l r dd a i.

Lemma rel_eno_levels u l r dd m : rel_eno u l r dd m -> levels_at nx ny nz m 3 dd.
Proof.
  intros (_ & _ & _ & Hd & E). apply levels_at_nth. intros j Hj. split.
  - rewrite Forall_forall in Hd. apply Hd. apply nth_In. exact Hj.
  - intros i. rewrite E. unfold eno_mem.
    destruct (Z.eqb_spec (3 + Z.of_nat j) 1); [lia|]. destruct (Z.eqb_spec (3 + Z.of_nat j) 2); [lia|].
    destruct (Z.ltb_spec (3 + Z.of_nat j) 3); [lia|]. replace (Z.to_nat (3 + Z.of_nat j - 3)) with j by lia. reflexivity.
Qed.

Lemma eno_put_left u l r dd m l' p v : rel_eno u l r dd m -> dims3 l' ->
  (forall j, vdat l' j = if j =? p then v else vdat l j) -> rel_eno u l' r dd (put m 1 p (inl v)).
Proof.
  intros (H0 & H1 & H2 & H3 & E) Hd Hv. do 4 (split; [assumption|]). intros b j. unfold put. rewrite E. unfold eno_mem.
  destruct (Z.eqb_spec b 1); cbn [andb]; [|reflexivity]. rewrite Hv. destruct (j =? p); reflexivity.
Qed.
Lemma eno_put_right u l r dd m r' p v : rel_eno u l r dd m -> dims3 r' ->
  (forall j, vdat r' j = if j =? p then v else vdat r j) -> rel_eno u l r' dd (put m 2 p (inl v)).
Proof.
  intros (H0 & H1 & H2 & H3 & E) Hd Hv. do 4 (split; [assumption|]). intros b j. unfold put. rewrite E. unfold eno_mem.
  destruct (Z.eqb_spec b 2) as [->|]; cbn [andb]; [|reflexivity]. cbn [Z.eqb Pos.eqb]. rewrite Hv. destruct (j =? p); reflexivity.
Qed.

Lemma total_extent {A} (v : vol A) k : dims3 v -> total v k = extent nx ny nz k.
Proof. intros (E1 & E2 & E3). unfold total, extent. rewrite E1, E2, E3. reflexivity. Qed.

Lemma differences_dims order d level n ld w start fin w' : dims3 w ->
  divided_differences order d level n ld w start fin = Ok w' -> dims3 w'.
Proof.
  unfold divided_differences. intros Hd H. destruct (forallb _ _); [|discriminate].
  destruct (for3_sim _ _ _ _ _ _ _ _ _ H (fun _ _ _ (t : unit) => Ok t) (fun v _ => dims3 v) tt) as (t & _ & Ht);
    [|exact Hd|exact Ht].
  clear H Hd w w'. intros x y z s t s' Hs H. exists t. split; [reflexivity|].
  destruct (ld x y z) as [a| |]; cbn [bind] in H; try discriminate.
  destruct (ld (x - _) _ _) as [b| |]; cbn [bind] in H; try discriminate.
  unfold vstore in H. destruct (inb _ _ _ _); [|discriminate]. injection H as <-. exact Hs.
Qed.
Lemma dd_levels_dims order d start fin : forall ws level n ld ws', Forall dims3 ws ->
  dd_levels order d level n ld ws start fin = Ok ws' -> Forall dims3 ws' /\ length ws' = length ws.
Proof.
  induction ws as [|w ws IH]; intros level n ld ws' Hd H; cbn [dd_levels] in H.
  - injection H as <-. auto.
  - inversion Hd; subst. destruct (divided_differences _ _ _ _ _ w _ _) as [w1| |] eqn:E1; cbn [bind] in H; try discriminate.
    destruct (dd_levels _ _ _ _ _ ws _ _) as [ws1| |] eqn:E2; cbn [bind] in H; try discriminate. injection H as <-.
    destruct (IH _ _ _ _ H3 E2). cbn. split; [constructor; [eapply differences_dims; eauto|auto]|congruence].
Qed.

Lemma eno_sim k (ind : V -> R) d (u : vol V) scratch l r start fin dd l' r' :
  dims3 u -> dims3 l -> dims3 r -> Forall dims3 scratch -> length scratch = (k - 1)%nat ->
  eno_perform k ind (vload u) d u scratch l r start fin = Ok (dd, (l', r')) ->
  run_loops size (omp_eno nx ny nz k d start fin) (eno_mem u l r dd) = Ok (eno_mem u l' r' dd, []).
Proof.
  intros Hu Hl Hr Hs Hk H. unfold eno_perform in H. destruct (_ || _); [discriminate|].
  destruct scratch as [|w0 scr]; [discriminate|]. set (ws := w0 :: scr) in *.
  assert (size3 u =? size3 w0 = true) as Es.
  { apply Z.eqb_eq. assert (dims3 w0) as (E1 & E2 & E3) by (inversion Hs; auto). destruct Hu as (F1 & F2 & F3).
    unfold size3. rewrite E1, E2, E3, F1, F2, F3. reflexivity. }
  cbv zeta in H. rewrite Es in H.
  destruct (dd_levels _ _ _ _ _ _ _ _) as [dd1| |] eqn:Ed; cbn [bind] in H; try discriminate.
  destruct (dd_levels_dims _ _ _ _ _ _ _ _ _ Hs Ed) as [Hdd Hlen].
  destruct (forallb _ _); [|discriminate].
  destruct (for3 _ _ _ _ _ _ _ _) as [[l1 r1]| |] eqn:E; cbn [bind] in H; try discriminate.
  injection H as <- <- <-.
  pose (Q (lr : vol V * vol V) (t' : shared (V + R) * list unit) :=
      rel_eno u (fst lr) (snd lr) dd1 (fst t') /\ snd t' = []).
  destruct (for3_sim _ _ _ _ _ _ _ _ _ E (acc3 size (eno_body nx ny nz k d)) Q (eno_mem u l r dd1, []))
    as ([m' xs] & Hr' & HR & Hx).
  - clear - Hk Hlen. intros x y z [l r] [m xs] s' [HR Hx] Hs. cbn [fst snd] in *. unfold acc3, eno_body. cbn [fst snd].
    destruct (count_shift _ _ _ _ _ _) as [shift| |] eqn:Ec; cbn [bind] in Hs; try discriminate.
    destruct (map_res _ _) as [us| |] eqn:Eu; cbn [bind] in Hs; try discriminate.
    destruct (vstore l x y z _) as [l'| |] eqn:El; cbn [bind] in Hs; try discriminate.
    destruct (vstore r x y z _) as [r'| |] eqn:Er; cbn [bind] in Hs; try discriminate.
    injection Hs as <-.
    rewrite <- Hk, <- Hlen. rewrite (run_shift nx ny nz d m x y z _ dd1 3 0 shift (rel_eno_levels _ _ _ _ _ HR) Ec).
    assert (holds_v nx ny nz m 0 u) as Hu0 by (destruct HR as (? & _ & _ & _ & E0); split; auto; intros i; rewrite E0; reflexivity).
    rewrite (run_pvs nx ny nz m 0 u (fun j => x - (shift - j) * unit_ d 0) (fun j => y - (shift - j) * unit_ d 1)
               (fun j => z - (shift - j) * unit_ d 2) _ Hu0 us _ Eu).
    destruct (run_put nx ny nz inl m 1 l l' x y z _ (pstore nx ny nz 2 x y z
        (inl (weighted (nth (Z.to_nat (shift + 1)) (eno_coef k) []) us)) (Ret [])) (proj1 (proj2 HR)) El) as (Hr & Hd & Hv).
    rewrite Hr. pose proof (eno_put_left _ _ _ _ _ _ _ _ HR Hd Hv) as HR1.
    match goal with |- context [run size _ ?mm] => destruct (run_put nx ny nz inl mm 2 r r' x y z _ (Ret [])
        (proj1 (proj2 (proj2 HR1))) Er) as (Hr2 & Hd2 & Hv2) end.
    rewrite Hr2. cbn [run bind fst snd]. eexists. split; [reflexivity|]. split; cbn [fst snd].
    + eapply eno_put_right; eauto.
    + rewrite Hx. reflexivity.
  - split; [|reflexivity]. repeat split; auto; apply Hu || apply Hl || apply Hr.
  - cbn [fst snd] in *. subst xs. unfold omp_eno. cbv zeta. rewrite run_par_y.
    unfold active in *. rewrite !(total_extent u _ Hu) in Hr'. rewrite Hr'.
    repeat f_equal. extensionality a. extensionality i. apply HR.
Qed.

Lemma eno_owned k d : owned nx ny nz (eno_body (V := V) nx ny nz k d).
Proof.
  exists (fun a => (a =? 1) || (a =? 2)), 0, 0, 0. intros x y z w a i H. rewrite !Z.add_0_r. unfold eno_body in H.
  apply accs_shift in H. destruct H as [(-> & H)|(s & H)].
  { split; [discriminate|]. intros E. apply orb_true_iff in E. rewrite !Z.eqb_eq in E. lia. }
  apply accs_pvs in H. destruct H as [(-> & ->)|(us & H)]; [split; discriminate|].
  apply accs_pstore in H. destruct H as [Hc [(-> & -> & ->)|H]]; [auto|].
  apply accs_pstore in H. destruct H as [_ [(-> & -> & ->)|H]]; [auto|]. inversion H.
Qed.
Lemma eno_independent k d start fin : Forall independent (omp_eno (V := V) nx ny nz k d start fin).
Proof. unfold omp_eno. eapply par_y_independent, eno_owned. Qed.
End Eno.

Lemma nth_replace {A} (a : list A) x y b n dflt : n <> length a -> nth n (a ++ x :: b) dflt = nth n (a ++ y :: b) dflt.
Proof.
  intros H. destruct (Nat.lt_ge_cases n (length a)).
  - rewrite !app_nth1; auto.
  - rewrite !app_nth2 by lia. destruct (n - length a)%nat eqn:E; [lia|reflexivity].
Qed.

Section Tecno.
Notation V := scalar_cvars.
Variables (nx ny nz : Z).
Notation size := (L_OmpFlux.area nx ny nz).
Notation dims3 := (dims3 nx ny nz).

Definition rel_tec (el er l r : vol R) (dd : list (vol R)) (m : shared (V + R)) : Prop :=
  dims3 el /\ dims3 er /\ dims3 l /\ dims3 r /\ Forall dims3 dd /\ forall a i, m a i = tecno_mem el er l r dd a i.

Lemma rel_tec_nth el er l r dd m j : rel_tec el er l r dd m -> (j < length dd)%nat ->
  holds_r nx ny nz m (4 + Z.of_nat j) (nth j dd (zero_vol 0 0 0)).
Proof.
  intros (_ & _ & _ & _ & Hd & E) Hj. split.
  - rewrite Forall_forall in Hd. apply Hd. apply nth_In. exact Hj.
  - intros i. rewrite E. unfold tecno_mem.
    destruct (Z.eqb_spec (4 + Z.of_nat j) 1); [lia|]. destruct (Z.eqb_spec (4 + Z.of_nat j) 2); [lia|].
    destruct (Z.eqb_spec (4 + Z.of_nat j) 3); [lia|].
    destruct (Z.ltb_spec (4 + Z.of_nat j) 4); [lia|]. replace (Z.to_nat (4 + Z.of_nat j - 4)) with j by lia. reflexivity.
Qed.
Lemma rel_tec_levels el er l r dd m : rel_tec el er l r dd m -> levels_at nx ny nz m 4 dd.
Proof. intros H. apply levels_at_nth. intros j Hj. eapply rel_tec_nth; eauto. Qed.
Lemma rel_tec_el el er l r dd m : rel_tec el er l r dd m -> holds_r nx ny nz m 0 el.
Proof. intros (H & _ & _ & _ & _ & E). split; auto. intros i. rewrite E. reflexivity. Qed.
Lemma rel_tec_er el er l r dd m : rel_tec el er l r dd m -> holds_r nx ny nz m 1 er.
Proof. intros (_ & H & _ & _ & _ & E). split; auto. intros i. rewrite E. reflexivity. Qed.

Lemma tec_put_left el er l r dd m l' p v : rel_tec el er l r dd m -> dims3 l' ->
  (forall j, vdat l' j = if j =? p then v else vdat l j) -> rel_tec el er l' r dd (put m 2 p (Datatypes.inr v)).
Proof.
  intros (H0 & H1 & H2 & H3 & H4 & E) Hd Hv. do 5 (split; [assumption|]). intros b j. unfold put. rewrite E. unfold tecno_mem.
  destruct (Z.eqb_spec b 2) as [->|]; cbn [andb]; [|reflexivity]. cbn [Z.eqb Pos.eqb]. rewrite Hv. destruct (j =? p); reflexivity.
Qed.
Lemma tec_put_right el er l r dd m r' p v : rel_tec el er l r dd m -> dims3 r' ->
  (forall j, vdat r' j = if j =? p then v else vdat r j) -> rel_tec el er l r' dd (put m 3 p (Datatypes.inr v)).
Proof.
  intros (H0 & H1 & H2 & H3 & H4 & E) Hd Hv. do 5 (split; [assumption|]). intros b j. unfold put. rewrite E. unfold tecno_mem.
  destruct (Z.eqb_spec b 3) as [->|]; cbn [andb]; [|reflexivity]. cbn [Z.eqb Pos.eqb]. rewrite Hv. destruct (j =? p); reflexivity.
Qed.
Lemma tec_put_level el er l r done w ws m w' p v : rel_tec el er l r (done ++ w :: ws) m -> dims3 w' ->
  (forall j, vdat w' j = if j =? p then v else vdat w j) ->
  rel_tec el er l r (done ++ w' :: ws) (put m (4 + Z.of_nat (length done)) p (Datatypes.inr v)).
Proof.
  intros (H0 & H1 & H2 & H3 & H4 & E) Hd Hv. do 4 (split; [assumption|]). split.
  { apply Forall_app in H4. destruct H4 as [Ha Hb]. apply Forall_app. split; auto. inversion Hb; subst. constructor; auto. }
  intros b j. unfold put. rewrite E. unfold tecno_mem.
  destruct (Z.eqb_spec b (4 + Z.of_nat (length done))) as [->|Hne]; cbn [andb].
  - destruct (Z.eqb_spec (4 + Z.of_nat (length done)) 1); [lia|]. destruct (Z.eqb_spec (4 + Z.of_nat (length done)) 2); [lia|].
    destruct (Z.eqb_spec (4 + Z.of_nat (length done)) 3); [lia|].
    destruct (Z.ltb_spec (4 + Z.of_nat (length done)) 4); [lia|].
    replace (Z.to_nat (4 + Z.of_nat (length done) - 4)) with (length done) by lia.
    rewrite !nth_middle, Hv. destruct (j =? p); reflexivity.
  - destruct (b =? 1); [reflexivity|]. destruct (b =? 2); [reflexivity|]. destruct (b =? 3); [reflexivity|].
    destruct (Z.ltb_spec b 4); [reflexivity|]. rewrite (nth_replace done w w'); [reflexivity|lia].
Qed.

Lemma levels_sim el er l r d : forall ws done level a b va vb m ws',
  rel_tec el er l r (done ++ ws) m ->
  (forall ws m, rel_tec el er l r (done ++ ws) m -> holds_r nx ny nz m a va /\ holds_r nx ny nz m b vb) ->
  tecno_levels d level (total va) (vload va) (vload vb) ws = Ok ws' ->
  exists m', run_loops size (omp_levels nx ny nz (length ws) a b (4 + Z.of_nat (length done)) d level) m = Ok (m', []) /\
    rel_tec el er l r (done ++ ws') m' /\ length ws' = length ws.
Proof.
  induction ws as [|w ws IH]; intros done level a b va vb m ws' HR Hsrc H; cbn [tecno_levels omp_levels length] in *.
  - injection H as <-. exists m. auto.
  - destruct (tecno_differences _ _ _ _ _ _) as [w1| |] eqn:E1; cbn [bind] in H; try discriminate.
    destruct (tecno_levels _ _ _ _ _ _) as [ws1| |] eqn:E2; cbn [bind] in H; try discriminate. injection H as <-.
    unfold tecno_differences in E1. destruct (forallb _ _); [|discriminate].
    pose proof (proj1 (proj1 (Hsrc _ _ HR))) as Hva.
    rewrite !(total_extent nx ny nz va _ Hva) in E1.
    pose (Q (v : vol R) (t' : shared (V + R) * list unit) :=
      rel_tec el er l r (done ++ v :: ws) (fst t') /\ snd t' = []).
    destruct (for3_sim _ _ _ _ _ _ _ _ _ E1 (acc3 size (diff_body nx ny nz a b (4 + Z.of_nat (length done)) d)) Q (m, []))
      as ([m1 xs] & Hr1 & HR1 & Hx).
    + clear - Hsrc. intros x y z w [m xs] w' [HR Hx] Hs. cbn [fst snd] in *. unfold acc3, diff_body. cbn [fst snd].
      destruct (vload va _ _ _) as [p| |] eqn:Ep; cbn [bind] in Hs; try discriminate.
      destruct (vload vb _ _ _) as [q| |] eqn:Eq; cbn [bind] in Hs; try discriminate.
      destruct (Hsrc _ _ HR) as [Ha Hb].
      rewrite (run_pr nx ny nz m a va _ _ _ p _ Ha Ep), (run_pr nx ny nz m b vb _ _ _ q _ Hb Eq).
      assert (dims3 w) as Hw.
      { destruct HR as (_ & _ & _ & _ & Hd & _). apply Forall_app in Hd. destruct Hd as [_ Hd]. inversion Hd; auto. }
      destruct (run_put nx ny nz Datatypes.inr m (4 + Z.of_nat (length done)) w w' _ _ _ _ (Ret []) Hw Hs) as (Hr & Hd & Hv).
      rewrite Hr. cbn [run bind fst snd]. eexists. split; [reflexivity|]. split; cbn [fst snd].
      * eapply tec_put_level; eauto.
      * rewrite Hx. reflexivity.
    + split; [exact HR|reflexivity].
    + cbn [fst snd] in *. subst xs.
      destruct (IH (done ++ [w1]) (level + 1) (4 + Z.of_nat (length done)) (4 + Z.of_nat (length done)) w1 w1 m1 ws1)
        as (m2 & Hr2 & HR2 & Hl2).
      * rewrite <- app_assoc. exact HR1.
      * intros ws2 m2 HR2. assert (holds_r nx ny nz m2 (4 + Z.of_nat (length done)) w1).
        { pose proof (rel_tec_nth _ _ _ _ _ _ (length done) HR2) as K. rewrite <- app_assoc in K. cbn [app] in K.
          rewrite nth_middle in K. apply K. rewrite app_length. cbn. lia. }
        auto.
      * exact E2.
      * exists m2. split; [|split].
        -- unfold omp_differences. cbv zeta. unfold M_OmpEno.epr. rewrite run_loops_app, run_par_x, Hr1. cbn [bind fst snd app].
           rewrite app_length in Hr2. cbn [length] in Hr2.
           replace (4 + Z.of_nat (length done) + 1) with (4 + Z.of_nat (length done + 1)) by lia.
           unfold M_OmpEno.epr in Hr2. rewrite Hr2. reflexivity.
        -- rewrite <- app_assoc in HR2. exact HR2.
        -- cbn. congruence.
Qed.

Lemma flat_inside (w : vol R) a i x : dims3 w -> vflat w i = Ok x -> inside size a i = true /\ x = vdat w i.
Proof.
  intros (E1 & E2 & E3). unfold vflat, inside, L_OmpFlux.area, size3. rewrite E1, E2, E3.
  destruct (_ && _) eqn:E; [|discriminate]. intros H. injection H as <-. auto.
Qed.
Lemma run_up m w (v : vol R) : holds_r nx ny nz m w v -> forall n i a up k, w_up n v i a = Ok up ->
  run size (p_up n w i a k) m = run size (k up) m.
Proof.
  intros [Hd Hm]. induction n as [|n IH]; intros i a up k H; cbn [w_up p_up] in *.
  - injection H as <-. reflexivity.
  - destruct (vflat v i) as [x| |] eqn:Ex; cbn [bind] in H; try discriminate.
    destruct (w_up n v _ _) as [rest| |] eqn:Er; cbn [bind] in H; try discriminate. injection H as <-.
    destruct (flat_inside v w i x Hd Ex) as [Hi ->]. cbn [run]. rewrite Hi, Hm. cbn [as_r].
    apply (IH _ _ rest (fun l => k ((a + vdat v i)%R :: l)) Er).
Qed.
Lemma run_down m w (v : vol R) : holds_r nx ny nz m w v -> forall n i a down k, w_down n v i a = Ok down ->
  run size (p_down n w i a k) m = run size (k down) m.
Proof.
  intros [Hd Hm]. induction n as [|n IH]; intros i a up k H; cbn [w_down p_down] in *.
  - injection H as <-. reflexivity.
  - destruct (vflat v (i - 1)) as [x| |] eqn:Ex; cbn [bind] in H; try discriminate.
    destruct (w_down n v _ _) as [rest| |] eqn:Er; cbn [bind] in H; try discriminate. injection H as <-.
    destruct (flat_inside v w (i - 1) x Hd Ex) as [Hi ->]. cbn [run]. rewrite Hi, Hm. cbn [as_r].
    apply (IH _ _ rest (fun l => k ((a - vdat v (i - 1))%R :: l)) Er).
Qed.

Lemma tecno_sim k d el er scratch l r dd l' r' :
  dims3 el -> dims3 er -> dims3 l -> dims3 r -> Forall dims3 scratch -> length scratch = (k - 1)%nat ->
  tecno_eno_var k d el er scratch l r = Ok (dd, (l', r')) ->
  run_loops size (omp_tecno_var nx ny nz k d) (tecno_mem el er l r scratch) = Ok (tecno_mem el er l' r' dd, []).
Proof.
  intros Hel Her Hl Hr Hs Hk H. unfold tecno_eno_var in H. cbv zeta in H.
  destruct (tecno_levels _ _ _ _ _ _) as [dd1| |] eqn:Ed; cbn [bind] in H; try discriminate.
  destruct (forallb _ _); [|discriminate].
  destruct (levels_sim el er l r d scratch [] 1 0 1 el er (tecno_mem el er l r scratch) dd1) as (m1 & Hr1 & HR1 & Hlen).
  { cbn [app]. repeat split; auto; apply Hel || apply Her || apply Hl || apply Hr. }
  { intros ws m HR. split; [eapply rel_tec_el|eapply rel_tec_er]; eauto. }
  { exact Ed. }
  cbn [app length] in *. change (4 + Z.of_nat 0) with 4 in Hr1.
  destruct dd1 as [|w0 dd0]; [discriminate|]. set (dd1 := w0 :: dd0) in *.
  destruct (for3 _ _ _ _ _ _ _ _) as [[l1 r1]| |] eqn:E; cbn [bind] in H; try discriminate.
  injection H as <- <- <-.
  rewrite !(total_extent nx ny nz el _ Hel) in E.
  pose (Q (lr : vol R * vol R) (t' : shared (V + R) * list unit) :=
      rel_tec el er (fst lr) (snd lr) dd1 (fst t') /\ snd t' = []).
  destruct (for3_sim _ _ _ _ _ _ _ _ _ E (acc3 size (tecno_body nx ny nz k d)) Q (m1, []))
    as ([m' xs] & Hr' & HR & Hx).
  - clear - Hk Hlen Hel. intros x y z [l r] [m xs] s' [HR Hx] Hs. cbn [fst snd] in *. unfold acc3, tecno_body. cbn [fst snd].
    destruct (count_shift _ _ _ _ _ _) as [shift| |] eqn:Ec; cbn [bind] in Hs; try discriminate.
    destruct (vload el _ _ _) as [a| |] eqn:Ea; cbn [bind] in Hs; try discriminate.
    destruct (vload er _ _ _) as [b| |] eqn:Eb; cbn [bind] in Hs; try discriminate.
    unfold w_current in Hs.
    destruct (w_up _ _ _ _) as [up| |] eqn:Eup; cbn [bind] in Hs; try discriminate.
    destruct (w_down _ _ _ _) as [down| |] eqn:Edn; cbn [bind] in Hs; try discriminate.
    destruct (vstore l x y z _) as [l'| |] eqn:El; cbn [bind] in Hs; try discriminate.
    destruct (vstore r x y z _) as [r'| |] eqn:Er; cbn [bind] in Hs; try discriminate.
    injection Hs as <-.
    match goal with |- context [p_shift nx ny nz d _ 4 x y z 0 ?kk] =>
      pose proof (run_shift nx ny nz d m x y z kk dd1 4 0 shift (rel_tec_levels _ _ _ _ _ _ HR) Ec) as K end.
    assert (length dd1 = (k - 1)%nat) as Ek by (rewrite <- Hk; exact Hlen). rewrite Ek in K. rewrite K. clear K.
    rewrite (run_pr nx ny nz m 0 el _ _ _ a _ (rel_tec_el _ _ _ _ _ _ HR) Ea).
    rewrite (run_pr nx ny nz m 1 er _ _ _ b _ (rel_tec_er _ _ _ _ _ _ HR) Eb).
    assert (holds_r nx ny nz m 4 w0) as H0.
    { apply (rel_tec_nth _ _ _ _ _ _ 0%nat HR). cbn. lia. }
    destruct Hel as (E1 & E2 & _). rewrite E1, E2 in Eup, Edn.
    rewrite (run_up m 4 w0 H0 _ _ _ up _ Eup), (run_down m 4 w0 H0 _ _ _ down _ Edn). cbv zeta.
    match goal with |- context [pstore nx ny nz 2 x y z _ ?kk] =>
      destruct (run_put nx ny nz Datatypes.inr m 2 l l' x y z _ kk (proj1 (proj2 (proj2 HR))) El) as (Hr & Hd & Hv) end.
    pose proof (tec_put_left _ _ _ _ _ _ _ _ _ HR Hd Hv) as HR1.
    match type of HR1 with rel_tec _ _ _ _ _ ?mm => destruct (run_put nx ny nz Datatypes.inr mm 3 r r' x y z _ (Ret [])
        (proj1 (proj2 (proj2 (proj2 HR1)))) Er) as (Hr2 & Hd2 & Hv2) end.
    pose proof (eq_trans Hr Hr2) as Hr3. cbn [run] in Hr3.
    eexists. split; [exact (f_equal (fun rr => bind rr (fun r => Ok (fst r, xs ++ snd r))) Hr3)|]. split; cbn [fst snd].
    + eapply tec_put_right; eauto.
    + rewrite Hx. reflexivity.
  - split; [exact HR1|reflexivity].
  - cbn [fst snd] in *. subst xs. unfold omp_tecno_var, M_OmpEno.epr in *. cbv zeta. rewrite run_loops_app, <- Hk, Hr1. cbn [bind fst snd app].
    rewrite run_par_y, Hr'. cbn [bind fst snd]. repeat f_equal. extensionality a. extensionality i. apply HR.
Qed.

Lemma diff_owned a b out d : a <> out -> b <> out -> owned nx ny nz (diff_body nx ny nz a b out d).
Proof.
  intros Ha Hb. exists (fun c => c =? out), (- unit_ d 0), (- unit_ d 1), (- unit_ d 2). intros x y z w c i H. unfold diff_body in H.
  rewrite !Z.add_opp_r.
  apply accs_pr in H. destruct H as [(-> & ->)|(r & H)]; [split; [discriminate|rewrite Z.eqb_eq; congruence]|].
  apply accs_pr in H. destruct H as [(-> & ->)|(r' & H)]; [split; [discriminate|rewrite Z.eqb_eq; congruence]|].
  apply accs_pstore in H. destruct H as [Hc [(-> & -> & ->)|H]]; [rewrite Z.eqb_refl; auto|inversion H].
Qed.
Lemma levels_independent d : forall n a b out level, a < out -> b < out ->
  Forall independent (omp_levels nx ny nz n a b out d level).
Proof.
  induction n as [|n IH]; intros a b out level Ha Hb; cbn [omp_levels]; [constructor|].
  apply Forall_app. split; [|apply IH; lia]. unfold omp_differences. eapply par_x_independent, diff_owned; lia.
Qed.
Lemma accs_up w k v b j : forall n i a, accs (p_up n w i a k) v b j -> (v = false /\ b = w) \/ exists l, accs (k l) v b j.
Proof.
  intros n. revert k. induction n as [|n IH]; cbn [p_up]; intros k i a H; [right; eauto|].
  inversion H; subst; [auto|]. match goal with K : accs (as_r _ ?e) _ _ _ |- _ => destruct e; cbn [as_r] in K; [inversion K|]; apply IH in K; destruct K as [?|(l & K)] end; eauto.
Qed.
Lemma accs_down w k v b j : forall n i a, accs (p_down n w i a k) v b j -> (v = false /\ b = w) \/ exists l, accs (k l) v b j.
Proof.
  intros n. revert k. induction n as [|n IH]; cbn [p_down]; intros k i a H; [right; eauto|].
  inversion H; subst; [auto|]. match goal with K : accs (as_r _ ?e) _ _ _ |- _ => destruct e; cbn [as_r] in K; [inversion K|]; apply IH in K; destruct K as [?|(l & K)] end; eauto.
Qed.
Lemma tecno_owned k d : owned nx ny nz (tecno_body nx ny nz k d).
Proof.
  exists (fun a => (a =? 2) || (a =? 3)), 0, 0, 0. intros x y z w a i H. rewrite !Z.add_0_r. unfold tecno_body in H.
  apply accs_shift in H. destruct H as [(-> & H)|(s & H)].
  { split; [discriminate|]. intros E. apply orb_true_iff in E. rewrite !Z.eqb_eq in E. lia. }
  apply accs_pr in H. destruct H as [(-> & ->)|(p & H)]; [split; discriminate|].
  apply accs_pr in H. destruct H as [(-> & ->)|(q & H)]; [split; discriminate|].
  apply accs_up in H. destruct H as [(-> & ->)|(up & H)]; [split; discriminate|].
  apply accs_down in H. destruct H as [(-> & ->)|(down & H)]; [split; discriminate|].
  apply accs_pstore in H. destruct H as [Hc [(-> & -> & ->)|H]]; [auto|].
  apply accs_pstore in H. destruct H as [_ [(-> & -> & ->)|H]]; [auto|]. inversion H.
Qed.
Lemma tecno_independent k d : Forall independent (omp_tecno_var nx ny nz k d).
Proof.
  unfold omp_tecno_var. apply Forall_app. split; [apply levels_independent; lia|eapply par_y_independent, tecno_owned].
Qed.
End Tecno.
