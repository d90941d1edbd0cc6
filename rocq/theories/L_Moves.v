(** Parallel loops whose iterations move one element each, from places nobody
    stores to. *)
From Coq Require Import ZArith List Bool Lia.
From Verif Require Import M_Base L_Base M_Flux M_Omp L_Omp.
Import ListNotations.
Open Scope Z_scope.

Section Moves.
Context {A X : Type} (size : Z -> Z) (m0 : shared A).
Notation prog := (prog A X).

(** Source and destination; nothing for an idle thread. *)
Record move : Type := mkmove { m_from : Z * Z; m_to : Z * Z }.
Definition moving (o : option move) : prog :=
  match o with
  | Some (mkmove (a, i) (b, j)) => Fetch a i (fun x => Store b j x (Ret []))
  | None => Ret []
  end.
Definition at0 (p : Z * Z) : A := m0 (fst p) (snd p).

Variable ms : list (option move).
Hypothesis Hsep : forall mv mv', In (Some mv) ms -> In (Some mv') ms -> m_from mv <> m_to mv'.
Hypothesis Hin : forall mv, In (Some mv) ms ->
  inside size (fst (m_from mv)) (snd (m_from mv)) = true /\ inside size (fst (m_to mv)) (snd (m_to mv)) = true.

Definition arrived (m : shared A) (p : Z * Z) : Prop :=
  exists mv, In (Some mv) ms /\ m_to mv = p /\ m (fst p) (snd p) = at0 (m_from mv).
Definition tst (m : shared A) (o : option move) (p : prog) : Prop :=
  In o ms /\
  match o with
  | None => p = Ret []
  | Some mv => p = moving (Some mv) \/ p = Store (fst (m_to mv)) (snd (m_to mv)) (at0 (m_from mv)) (Ret [])
               \/ (p = Ret [] /\ arrived m (m_to mv))
  end.
Definition mvinv (st : shared A * list prog) : Prop :=
  Forall2 (tst (fst st)) ms (snd st) /\
  forall a i, (forall mv, In (Some mv) ms -> m_to mv <> (a, i)) -> fst st a i = m0 a i.

Lemma arrived_put m mv p : In (Some mv) ms -> arrived m p ->
  arrived (put m (fst (m_to mv)) (snd (m_to mv)) (at0 (m_from mv))) p.
Proof.
  intros Hm (mv' & H1 & H2 & H3). unfold arrived, put.
  destruct ((fst p =? fst (m_to mv)) && (snd p =? snd (m_to mv))) eqn:Eq.
  - apply andb_true_iff in Eq. rewrite !Z.eqb_eq in Eq. destruct Eq. exists mv. split; [exact Hm|]. split; [|reflexivity].
    destruct p, (m_to mv); cbn in *; congruence.
  - exists mv'. auto.
Qed.
Lemma Forall2_tst_put m mv os ps : In (Some mv) ms -> Forall2 (tst m) os ps ->
  Forall2 (tst (put m (fst (m_to mv)) (snd (m_to mv)) (at0 (m_from mv)))) os ps.
Proof.
  intros Hm. induction 1 as [|o p os ps Ho _ IH]; constructor; auto. destruct Ho as [H1 H2]. split; [exact H1|].
  destruct o as [mv'|]; [|exact H2]. destruct H2 as [H2|[H2|(H2 & H3)]]; auto. right; right. split; [exact H2|]. now apply arrived_put.
Qed.

Lemma mvinv_step st st' : mvinv st -> pstep size st st' -> mvinv st'.
Proof.
  intros (HF & HU) Hs. destruct Hs as [m l a i k r Hi|m l a i v k r Hi]; cbn [fst snd] in *.
  - apply Forall2_app_inv_r in HF. destruct HF as (l1 & l2 & F1 & F2 & EL). inversion F2 as [|o y l2' r' Ho Hr]; subst l2 y r'.
    split; [|exact HU]. cbn [fst snd]. rewrite EL. apply Forall2_app; [exact F1|]. constructor; [|exact Hr].
    destruct Ho as [H1 H2]. split; [exact H1|]. destruct o as [[[fa fi] [ta ti]]|]; [|discriminate].
    destruct H2 as [H2|[H2|(H2 & _)]]; [|discriminate|discriminate]. cbn in H2. injection H2 as -> -> ->. right; left. cbn.
    rewrite (HU fa fi); [reflexivity|]. intros mv Hmv. intros Eq. apply (Hsep _ mv H1 Hmv). cbn. congruence.
  - apply Forall2_app_inv_r in HF. destruct HF as (l1 & l2 & F1 & F2 & EL). inversion F2 as [|o y l2' r' Ho Hr]; subst l2 y r'.
    destruct Ho as [H1 H2]. destruct o as [mv|]; [|discriminate].
    assert (a = fst (m_to mv) /\ i = snd (m_to mv) /\ v = at0 (m_from mv) /\ k = Ret []) as (-> & -> & -> & ->).
    { destruct H2 as [H2|[H2|(H2 & _)]]; [|injection H2 as -> -> -> ->; auto|discriminate].
      destruct mv as [[fa fi] [ta ti]]. discriminate. }
    split; cbn [fst snd].
    + rewrite EL. apply Forall2_app; [apply Forall2_tst_put; auto|]. constructor; [|apply Forall2_tst_put; auto].
      split; [exact H1|]. right; right. split; [reflexivity|]. exists mv. split; [exact H1|]. split; [reflexivity|].
      unfold put. rewrite !Z.eqb_refl. reflexivity.
    + intros b j Hb. unfold put. destruct ((b =? fst (m_to mv)) && (j =? snd (m_to mv))) eqn:Eq; [|auto].
      apply andb_true_iff in Eq. rewrite !Z.eqb_eq in Eq. destruct Eq. exfalso. apply (Hb mv H1). destruct (m_to mv); cbn in *; congruence.
Qed.
Lemma mvinv_steps n : forall st st', mvinv st -> psteps size n st st' -> mvinv st'.
Proof. induction n; intros st st' H Hs; inversion Hs; subst; auto. eapply IHn; [eapply mvinv_step; eauto|eassumption]. Qed.
Lemma mvinv_start : mvinv (m0, map moving ms).
Proof.
  split; [|auto]. cbn [fst snd]. assert (forall l, incl l ms -> Forall2 (tst m0) l (map moving l)) as G; [|apply G, incl_refl].
  induction l as [|o l IH]; intros Hl; cbn [map]; constructor; [|apply IH; intros y Hy; apply Hl; cbn; auto].
  split; [apply Hl; cbn; auto|]. destruct o; [left|]; reflexivity.
Qed.

(** Every finished run. *)
Lemma moves_finished m' xs : outcome size (map moving ms) m0 (Ok (m', xs)) ->
  xs = [] /\ (forall mv, In (Some mv) ms -> arrived m' (m_to mv)) /\
  forall a i, (forall mv, In (Some mv) ms -> m_to mv <> (a, i)) -> m' a i = m0 a i.
Proof.
  intros H. inversion H as [n m1 xss Hn E1|]; subst. pose proof (mvinv_steps n _ _ mvinv_start Hn) as (HF & HU). cbn [fst snd] in *.
  split; [|split; [|exact HU]].
  - assert (forall os yss, Forall2 (tst m') os (map Ret yss) -> concat yss = []) as G; [|eapply G; eauto].
    induction os as [|o os IH]; intros [|ys yss] F; cbn in F; inversion F as [|? ? ? ? Ho Hr]; subst; cbn; [reflexivity|].
    rewrite (IH yss) by assumption. rewrite app_nil_r. destruct Ho as [_ K]. destruct o as [[[fa fi] [ta ti]]|]; [|congruence].
    cbn in *. intuition congruence.
  - intros mv Hmv. assert (forall os yss, Forall2 (tst m') os (map Ret yss) -> In (Some mv) os -> arrived m' (m_to mv)) as G; [|eapply G; eauto].
    induction os as [|o os IH]; intros [|ys yss] F Hi; cbn in F; inversion F as [|? ? ? ? Ho Hr]; subst; [destruct Hi|].
    destruct Hi as [->|Hi]; [|eapply IH; eauto]. destruct Ho as [_ K]. destruct K as [K|[K|(_ & K)]]; [|discriminate|exact K].
    destruct mv as [[fa fi] [ta ti]]. discriminate.
Qed.

(** There is one. *)
Lemma moves_finish : exists m', outcome size (map moving ms) m0 (Ok (m', [])).
Proof.
  assert (forall l, incl l ms -> forall m ys, exists m',
      fold_res (fun p s => r <- run size p (fst s);; Ok (fst r, snd s ++ snd r)) (map moving l) (m, ys) = Ok (m', ys)) as G.
  { induction l as [|o l IH]; intros Hl m ys; cbn [map fold_res]; [eauto|].
    assert (exists m1, run size (moving o) m = Ok (m1, [])) as (m1 & Em).
    { destruct o as [[[fa fi] [ta ti]]|]; cbn; [|eauto]. destruct (Hin _ (Hl _ (or_introl eq_refl))) as (I1 & I2). cbn in I1, I2. rewrite I1, I2. eauto. }
    cbn [fst]. rewrite Em. cbn. rewrite app_nil_r. apply IH. intros y Hy. apply Hl. cbn; auto. }
  destruct (G ms (incl_refl _) m0 []) as (m' & Em). destruct (run_loop_psteps size _ _ _ _ _ Em []) as (n & xss & Hn & Ex).
  cbn in Hn, Ex. exists m'. rewrite Ex. econstructor. exact Hn.
Qed.

(** No race if all destinations differ. *)
Lemma moves_safe : (forall l mv c mv' r, ms = l ++ Some mv :: c ++ Some mv' :: r -> m_to mv <> m_to mv') ->
  ~ outcome size (map moving ms) m0 UB.
Proof.
  intros Hd H. inversion H as [|n s Hn Hu]; subst. pose proof (mvinv_steps n _ _ mvinv_start Hn) as (HF & HU).
  assert (N : forall m o p w a i, tst m o p -> next p = Some (w, a, i) -> exists mv, o = Some mv /\ In o ms /\
     ((w = false /\ m_from mv = (a, i)) \/ (w = true /\ m_to mv = (a, i)))).
  { intros m o p w a i [H1 H2] Hx. destruct o as [[[fa fi] [ta ti]]|]; [|subst; discriminate]. eexists. split; [reflexivity|]. split; [exact H1|].
    destruct H2 as [->|[->|(-> & _)]]; cbn in Hx; [| |discriminate]; injection Hx as <- <- <-; auto. }
  inversion Hu; subst; cbn [fst snd] in *.
  - apply Forall2_app_inv_r in HF. destruct HF as (l1 & l2 & F1 & F2 & EL). inversion F2 as [|o y l2' r' Ho Hr]; subst.
    destruct Ho as [_ H2]. destruct o as [[[fa fi] [ta ti]]|]; [|discriminate]. destruct H2 as [H2|[H2|(H2 & _)]]; discriminate.
  - apply Forall2_app_inv_r in HF. destruct HF as (l1 & l2 & F1 & F2 & EL). inversion F2 as [|o y l2' r' Ho Hr]; subst l2 y r'.
    destruct (N _ _ _ _ _ _ Ho H0) as (mv & -> & Hi & [(_ & Eq)|(_ & Eq)]); destruct (Hin mv Hi) as (I1 & I2); rewrite Eq in *; cbn in *; congruence.
  - apply Forall2_app_inv_r in HF. destruct HF as (l1 & l2 & F1 & F2 & EL). inversion F2 as [|o y l2' r' Ho Hr]; subst l2 y r'.
    apply Forall2_app_inv_r in Hr. destruct Hr as (l3 & l4 & F3 & F4 & EL4). inversion F4 as [|o' y l4' r' Ho' Hr]; subst l4 y r'.
    destruct (N _ _ _ _ _ _ Ho H0) as (mv & -> & Hi & D). destruct (N _ _ _ _ _ _ Ho' H1) as (mv' & -> & Hi' & D').
    destruct D as [(-> & D)|(-> & D)], D' as [(-> & D')|(-> & D')]; [discriminate| | |].
    + apply (Hsep mv mv' Hi Hi'). congruence.
    + apply (Hsep mv' mv Hi' Hi). congruence.
    + apply (Hd l1 mv l3 mv' l4'); [|congruence]. rewrite EL, EL4. reflexivity.
Qed.

(** A race otherwise. *)
Lemma moves_race l mv c mv' r : ms = l ++ Some mv :: c ++ Some mv' :: r -> m_to mv = m_to mv' ->
  outcome size (map moving ms) m0 UB.
Proof.
  intros Em Et. assert (I1 : In (Some mv) ms) by (rewrite Em; apply in_or_app; cbn; auto).
  assert (I2 : In (Some mv') ms) by (rewrite Em; apply in_or_app; right; right; apply in_or_app; cbn; auto).
  destruct (Hin _ I1) as (J1 & _). destruct (Hin _ I2) as (J2 & _).
  destruct mv as [[fa fi] [ta ti]], mv' as [[fa' fi'] [ta' ti']]. cbn in J1, J2, Et. injection Et as <- <-.
  rewrite Em. rewrite map_app. cbn [map]. rewrite map_app. cbn [map moving].
  eapply (outcome_ub size _ _ 2).
  - econstructor; [apply step_load; exact J1|]. cbv beta. eapply psteps_S; [|apply psteps_0].
    change (map moving l ++ Store ta ti (m0 fa fi) (Ret []) :: map moving c ++ ?z) with
           (map moving l ++ (Store ta ti (m0 fa fi) (Ret []) :: map moving c) ++ z).
    rewrite app_assoc. apply step_load. exact J2.
  - cbv beta. rewrite <- app_assoc. cbn [app]. eapply undefined_race with (w := true) (w' := true); reflexivity.
Qed.
End Moves.
