(** C85: statistics are computed when the configuration says so. *)
From Coq Require Import ZArith Reals List Bool Lra Lia.
From Verif Require Import M_Base L_Base M_Time S_Time L_Time M_StatConfig S_StatConfig M_Stats.
Import ListNotations.
Open Scope Z_scope.

(** The objects with an interval, seen as in M_Time. *)
Definition fixed_of (wl : slogged) : list logged := match wl with (SFixed w, l) => [(w, l)] | _ => [] end.
Definition fixeds (ws : list slogged) : list logged := flat_map fixed_of ws.
Definition fixed_obs (ws : list sobs) : list tw := flat_map (fun w => match w with SFixed w => [w] | _ => [] end) ws.

Lemma scall_fixed t ws : fixeds (scall t ws) = call_writers t (fixeds ws).
Proof.
  unfold scall, call_writers, fixeds. induction ws as [|[w l] ws IH]; [reflexivity|]. cbn [map flat_map].
  rewrite map_app, IH. f_equal. destruct w as [w| |]; cbn [fixed_of map]; try reflexivity.
  unfold sput_log, put_log. cbn [fst snd sput]. destruct (tw_put t w) as [w' b]. reflexivity.
Qed.
Lemma sshorten_fixed t ws : forall dt, sshorten t ws dt = shorten t (fixeds ws) dt.
Proof.
  unfold sshorten, shorten, fixeds. induction ws as [|[w l] ws IH]; intros dt; [reflexivity|]. cbn [flat_map fold_left fst].
  rewrite fold_left_app, IH. destruct w as [w| |]; reflexivity.
Qed.
Lemma fresh_fixed ws : fixeds (map (fun w => (w, [])) ws) = map (fun w => (w, [])) (fixed_obs ws).
Proof.
  unfold fixeds, fixed_obs. induction ws as [|w ws IH]; [reflexivity|]. cbn [map flat_map]. rewrite map_app, IH.
  destruct w; reflexivity.
Qed.
Lemma sample_fixed tend ws dts : fst (sample_until tend ws dts) = fst (drive_until tend (fixed_obs ws) dts) /\
  fixeds (snd (sample_until tend ws dts)) = snd (drive_until tend (fixed_obs ws) dts).
Proof.
  unfold sample_until, drive_until.
  assert (G : forall l (a : R * list slogged) (b : R * list logged), fst a = fst b -> fixeds (snd a) = snd b ->
    fst (fold_left (fun st dt => if Rge_bool (fst st) tend then st else sstep dt st) l a) =
    fst (fold_left (fun st dt => if Rge_bool (fst st) tend then st else time_step dt st) l b) /\
    fixeds (snd (fold_left (fun st dt => if Rge_bool (fst st) tend then st else sstep dt st) l a)) =
    snd (fold_left (fun st dt => if Rge_bool (fst st) tend then st else time_step dt st) l b)).
  { induction l as [|dt l IH]; intros [t ws'] [t' vs] E1 E2; cbn [fst snd] in *; [auto|]. subst t' vs. cbn [fold_left fst].
    destruct (Rge_bool t tend); [now apply IH|]. apply IH; unfold sstep, time_step; cbn [fst snd].
    - now rewrite sshorten_fixed.
    - now rewrite scall_fixed, sshorten_fixed. }
  apply G; cbn [fst snd]; [reflexivity|]. now rewrite scall_fixed, fresh_fixed.
Qed.

(** The kind of an object does not change. *)
Definition alike (w : sobs) (wl : slogged) : Prop :=
  match w, fst wl with SFixed _, SFixed _ => True | SNever, SNever => True | SEvery, SEvery => True | _, _ => False end.
Lemma alike_put t w wl : alike w wl -> alike w (sput_log t wl).
Proof.
  destruct wl as [v l]. unfold alike, sput_log. cbn [fst snd]. destruct v as [v| |]; cbn [sput fst]; auto.
  destruct (tw_put t v) as [v' b]. cbn [fst]. auto.
Qed.
Lemma alike_call t ws ls : Forall2 alike ws ls -> Forall2 alike ws (scall t ls).
Proof. induction 1; cbn; constructor; auto. now apply alike_put. Qed.
Lemma alike_sample tend ws dts : Forall2 alike ws (snd (sample_until tend ws dts)).
Proof.
  unfold sample_until.
  assert (G : forall l (a : R * list slogged), Forall2 alike ws (snd a) ->
    Forall2 alike ws (snd (fold_left (fun st dt => if Rge_bool (fst st) tend then st else sstep dt st) l a))).
  { induction l as [|dt l IH]; intros [t vs] H; [exact H|]. cbn [fold_left fst].
    destruct (Rge_bool t tend); apply IH; [exact H|]. cbn [sstep snd]. now apply alike_call. }
  apply G. cbn [snd]. apply alike_call. clear. induction ws as [|w ws IH]; cbn; constructor; auto. destruct w; exact I.
Qed.

Lemma fixed_obs_app a b : fixed_obs (a ++ b) = fixed_obs a ++ fixed_obs b.
Proof. unfold fixed_obs. now rewrite flat_map_app. Qed.
Lemma alike_skip ws rest ls : Forall2 alike (ws ++ rest) ls ->
  fixed_obs (skipn (length ws) (map fst ls)) = skipn (length (fixed_obs ws)) (map fst (fixeds ls)).
Proof.
  revert ls. induction ws as [|w ws IH]; intros ls H.
  - cbn [length fixed_obs flat_map skipn]. clear. unfold fixed_obs, fixeds. induction ls as [|[w l] ls IH]; [reflexivity|].
    cbn [map flat_map fst]. rewrite map_app, IH. destruct w; reflexivity.
  - inversion H as [|? wl ? ls' Hw H']; subst. cbn [length skipn map]. rewrite (IH ls' H').
    destruct wl as [v l]. unfold alike in Hw. cbn [fst] in Hw. destruct w as [w| |], v as [v| |]; try contradiction; reflexivity.
Qed.

Lemma runs_fixed tend fresh samples : forall stats,
  map (fun r => (fst r, fixeds (snd r))) (run_samples tend fresh stats samples) =
  drive_samples tend (fixed_obs fresh) (fixed_obs stats) samples.
Proof.
  induction samples as [|dts samples IH]; intros stats; [reflexivity|]. cbn [run_samples drive_samples map].
  destruct (sample_fixed tend (fresh ++ stats) dts) as (E1 & E2). rewrite fixed_obs_app in E1, E2. f_equal.
  - rewrite E1, E2. now rewrite <- surjective_pairing.
  - rewrite IH. f_equal. rewrite (alike_skip fresh stats _ (alike_sample tend (fresh ++ stats) dts)). now rewrite E2.
Qed.
Lemma alike_trans ws l3 : forall l2, Forall2 alike ws l3 -> Forall2 alike (map fst l3) l2 -> Forall2 alike ws l2.
Proof.
  intros l2 G. revert l2. induction G as [|w wl ws l3 Hw G IH]; intros l2 H; inversion H; subst; constructor; auto.
  unfold alike in *. destruct w, wl as [[?| |] ?]; cbn [fst] in *; try contradiction; destruct (fst y); auto.
Qed.
Lemma runs_alike tend fresh samples : forall stats,
  Forall (fun r => Forall2 alike (fresh ++ stats) (snd r)) (run_samples tend fresh stats samples).
Proof.
  induction samples as [|dts samples IH]; intros stats; cbn [run_samples]; constructor.
  - apply alike_sample.
  - pose proof (alike_sample tend (fresh ++ stats) dts) as H0.
    eapply Forall_impl; [|apply IH]. cbv beta. intros r H.
    revert H0 H. generalize (snd r), (snd (sample_until tend (fresh ++ stats) dts)). clear. intros l l0 H0.
    assert (G : Forall2 alike stats (skipn (length fresh) l0)).
    { revert l0 H0. induction fresh as [|w fresh IH]; intros l0 H0; [exact H0|]. inversion H0; subst. cbn. now apply IH. }
    intros H. apply Forall2_app_inv_l in H. destruct H as (l1 & l2 & H1 & H2 & ->). apply Forall2_app; [exact H1|].
    rewrite skipn_map in H2. exact (alike_trans _ _ _ G H2).
Qed.

(** From the intervals back to the objects. *)
Lemma fixeds_all (P : tw -> logged -> Prop) ws ls : Forall2 alike ws ls -> Forall2 P (fixed_obs ws) (fixeds ls) ->
  Forall2 (fun (w : sobs) (wl : slogged) => forall v, w = SFixed v -> exists v', fst wl = SFixed v' /\ P v (v', snd wl)) ws ls.
Proof.
  induction 1 as [|w [v l] ws ls Hw H IH]; intros HP; constructor.
  - intros v0 ->. unfold alike in Hw. cbn [fst] in Hw. destruct v as [v'| |]; try contradiction. cbn in HP. inversion HP; subst.
    now exists v'.
  - apply IH. destruct w as [w| |], v as [v'| |]; try contradiction; cbn in HP; try exact HP. now inversion HP.
Qed.

(** The multiples up to the end time. *)
Lemma saved_list tend n (wi : bool) l : (0 < tend)%R -> 0 < n -> saved_up_to (fixed_times (tend / IZR n) 0 (if wi then 0 else 1)) tend l ->
  l = save_list tend n wi.
Proof.
  intros Ht Hn (m & -> & H1 & H2). assert (Pn : (0 < IZR n)%R) by now apply IZR_lt.
  set (f := if wi then 0 else 1) in *. assert (Hf : 0 <= f <= 1) by (unfold f; destruct wi; lia).
  assert (Em : Z.of_nat m = n + 1 - f).
  { assert (A : n < f + Z.of_nat m).
    { apply lt_IZR. unfold fixed_times in H2. rewrite Rplus_0_l in H2.
      apply (Rmult_lt_reg_r (tend / IZR n)); [now apply Rdiv_lt_0_compat|].
      replace (IZR n * (tend / IZR n))%R with tend by (field; lra). exact H2. }
    destruct m as [|m]; [lia|]. assert (B : f + Z.of_nat m <= n).
    { apply le_IZR. specialize (H1 m (Nat.lt_succ_diag_r m)). unfold fixed_times in H1. rewrite Rplus_0_l in H1.
      apply (Rmult_le_reg_r (tend / IZR n)); [now apply Rdiv_lt_0_compat|].
      replace (IZR n * (tend / IZR n))%R with tend by (field; lra). exact H1. }
    lia. }
  unfold save_list. fold f. unfold zrange. replace (Z.to_nat (n + 1 - f)) with m by lia. rewrite map_map. apply map_ext. intros a.
  unfold fixed_times. rewrite Rplus_0_l. unfold Rdiv. now rewrite Rmult_assoc.
Qed.

(** Nodes with everything a statistic needs. *)
Definition complete (nd : node) : Prop :=
  match n_saves nd with Some n => 0 < n | None => n_time nd <> None /\ n_radius nd <> None end.
Definition made (tend : R) (nd : node) (w : sobs) : Prop :=
  match n_saves nd with Some n => w = SFixed (new_stat (tend / IZR n) (initial_of nd)) | None => w = SEvery end.
Lemma create_complete tend nodes : Forall complete nodes -> forall i,
  exists stats, create_statistics tend i nodes = Ok stats /\
    map fst stats = zrange i (i + Z.of_nat (length nodes)) /\ Forall2 (made tend) nodes (map snd stats).
Proof.
  induction 1 as [|nd nodes Hc H IH]; intros i.
  - exists []. split; [reflexivity|]. split; [|constructor]. cbn [length map]. rewrite Z.add_0_r. unfold zrange. now rewrite Z.sub_diag.
  - destruct (IH (i + 1)) as (l & E & Ef & Es).
    assert (Hw : exists w, node_stat tend nd = Ok (Some w) /\ made tend nd w).
    { unfold complete in Hc. unfold node_stat, made. destruct (n_saves nd) as [n|].
      - replace (n =? 0) with false by (symmetry; apply Z.eqb_neq; lia). eexists. split; reflexivity.
      - destruct Hc as (A & B). destruct (n_time nd); [|congruence]. destruct (n_radius nd); [|congruence]. eexists. split; reflexivity. }
    destruct Hw as (w & Ew & Mw). exists ((i, w) :: l). cbn [create_statistics]. rewrite Ew. cbn [bind]. rewrite E. cbn [bind].
    split; [reflexivity|]. cbn [map fst snd length]. split; [|constructor; auto].
    rewrite (zrange_cons i) by lia. rewrite Ef. f_equal. f_equal. lia.
Qed.

Lemma Forall2_skip {A B C} (P : A -> B -> Prop) (f : C -> A) fresh ws : forall ls,
  Forall2 P (map f fresh ++ ws) ls -> Forall2 P ws (skipn (length fresh) ls).
Proof. induction fresh as [|w l IH]; intros ls G; [exact G|]. cbn in G. inversion G; subst. cbn. now apply IH. Qed.

(** ** C85 *)

(** Every node with what it needs makes one statistic, in the order of the configuration;
    those with numberOfSaves are computed, for every sample, exactly at the multiples of
    endTime / numberOfSaves up to the end time, whatever the timesteps and the other
    writers. *)
Theorem C85_saves_partial : forall tend nodes fresh samples,
  (0 < tend)%R -> Forall complete nodes -> Exists (fun nd => n_saves nd <> None) nodes ->
  Forall meetable fresh -> Forall (Forall (fun d => 0 < d)%R) samples ->
  exists stats, create_statistics tend 0 nodes = Ok stats /\ map fst stats = zrange 0 (Z.of_nat (length nodes)) /\
    Forall (fun r => (tend <= fst r)%R -> fst r = tend /\
        Forall2 (fun nd wl => forall n, n_saves nd = Some n -> snd wl = save_list tend n (initial_of nd))
          nodes (skipn (length fresh) (snd r)))
      (run_samples tend (map SFixed fresh) (map snd stats) samples).
Proof.
  intros tend nodes fresh samples Ht Hc He Hf Hs.
  destruct (create_complete tend nodes Hc 0) as (stats & E & Ef & Es). exists stats. split; [exact E|]. split; [exact Ef|].
  assert (Efr : fixed_obs (map SFixed fresh) = fresh).
  { clear. unfold fixed_obs. induction fresh as [|w l IH]; [reflexivity|]. cbn [map flat_map app]. now rewrite IH. }
  assert (Hpos : forall n, 0 < n -> (0 < tend / IZR n)%R) by (intros; apply Rdiv_lt_0_compat; [exact Ht|now apply IZR_lt]).
  assert (Hst : Forall is_stat (fixed_obs (map snd stats))).
  { clear - Es Hc Hpos. revert Es. generalize (map snd stats). intros l Es. induction Es as [|nd w nodes l Hw Es IH]; [constructor|].
    inversion Hc as [|? ? C1 C2]; subst. unfold made in Hw. unfold complete in C1. destruct (n_saves nd) as [n|]; subst w; cbn.
    - constructor; [cbn; now apply Hpos|now apply IH].
    - now apply IH. }
  pose proof (samples_ok tend fresh Hf samples (fixed_obs (map snd stats)) Hst Hs) as K.
  pose proof (runs_fixed tend (map SFixed fresh) samples (map snd stats)) as R1. rewrite Efr in R1. rewrite <- R1 in K.
  assert (Hend : exists w M, In w (fresh ++ fixed_obs (map snd stats)) /\ tend = save_time w M).
  { clear - He Es Hc Ht. revert Es. generalize (map snd stats). intros l Es. induction Es as [|nd w nodes l Hw Es IH]; [inversion He|].
    inversion Hc as [|? ? C1 C2]; subst. unfold made in Hw. unfold complete in C1. destruct (n_saves nd) as [n|] eqn:En; subst w.
    - exists (new_stat (tend / IZR n) (initial_of nd)), (Z.to_nat (n - (if initial_of nd then 0 else 1))). split.
      + apply in_or_app. right. cbn. now left.
      + cbn [save_time new_stat]. unfold fixed_times.
        replace ((if initial_of nd then 0 else 1) + Z.of_nat (Z.to_nat (n - (if initial_of nd then 0 else 1)))) with n by (destruct (initial_of nd); lia).
        assert (0 < IZR n)%R by now apply IZR_lt. field. lra.
    - inversion He as [? ? X|? ? X]; subst; [congruence|]. destruct (IH C2 X) as (w & M & I & T). exists w, M. split; [|exact T].
      cbn. exact I. }
  specialize (K Hend). apply Forall_map in K. cbv beta in K. cbn [fst snd] in K.
  pose proof (runs_alike tend (map SFixed fresh) samples (map snd stats)) as A.
  rewrite Forall_forall in *. intros r Hr Hge. destruct (K r Hr Hge) as (T & F). split; [exact T|].
  specialize (A r Hr).
  assert (Efa : fixed_obs (map SFixed fresh ++ map snd stats) = fresh ++ fixed_obs (map snd stats)) by (now rewrite fixed_obs_app, Efr).
  rewrite <- Efa in F. pose proof (fixeds_all _ _ _ A F) as G. clear - G Es Ht Hc.
  assert (G2 : Forall2 (fun (w : sobs) (wl : slogged) => forall v, w = SFixed v -> exists v', fst wl = SFixed v' /\
    saved_up_to (save_time v) tend (snd wl)) (map snd stats) (skipn (length fresh) (snd r))).
  { exact (Forall2_skip _ _ _ _ _ G). }
  revert G2. generalize (skipn (length fresh) (snd r)) as ls. revert Es. generalize (map snd stats) as l. clear G.
  intros l Es. induction Es as [|nd w nodes l Hw Es IH]; intros ls G; inversion G; subst; constructor.
  - intros n En. unfold made in Hw. rewrite En in Hw. destruct (H1 _ Hw) as (v' & _ & S).
    cbn [save_time new_stat] in S. apply saved_list; auto. specialize (Hc nd (or_introl eq_refl)). unfold complete in Hc. now rewrite En in Hc.
  - apply IH; auto. intros x Hx. apply Hc. now right.
Qed.

(** A statistic with a time window is computed whenever the writers are called, at time 0
    and after every step: window or not. *)
Theorem C85_window_computed : forall tend ws dts j w l,
  nth_error ws j = Some SEvery -> nth_error (snd (sample_until tend ws dts)) j = Some (w, l) ->
  forall t, In t l <-> exists k, (k <= length dts)%nat /\ t = fst (sample_until tend ws (firstn k dts)).
Proof.
  intros tend ws dts. induction dts as [|dt dts IH] using rev_ind; intros j w l Hw Hl t.
  - unfold sample_until in *. cbn [fold_left snd] in Hl. unfold scall in Hl. rewrite !nth_error_map, Hw in Hl. cbn in Hl.
    injection Hl as <- <-. split.
    + intros [<-|[]]. exists 0%nat. split; [lia|reflexivity].
    + intros (k & Hk & ->). cbn [length] in Hk. assert (k = 0)%nat as -> by lia. now left.
  - assert (Es : sample_until tend ws (dts ++ [dt]) =
      (let st := sample_until tend ws dts in if Rge_bool (fst st) tend then st else sstep dt st)).
    { unfold sample_until. now rewrite fold_left_app. }
    assert (Hold : forall m, (exists k, (k <= length dts)%nat /\ m = fst (sample_until tend ws (firstn k dts))) <->
      (exists k, (k <= length dts)%nat /\ m = fst (sample_until tend ws (firstn k (dts ++ [dt]))))).
    { intros m. split; intros (k & Hk & E); exists k; (split; [exact Hk|]); rewrite firstn_app in *;
        replace (k - length dts)%nat with 0%nat in * by lia; cbn [firstn] in *; rewrite app_nil_r in *; exact E. }
    assert (Hnew : forall m, (exists k, (k <= length (dts ++ [dt]))%nat /\ m = fst (sample_until tend ws (firstn k (dts ++ [dt])))) <->
      (exists k, (k <= length dts)%nat /\ m = fst (sample_until tend ws (firstn k dts))) \/ m = fst (sample_until tend ws (dts ++ [dt]))).
    { intros m. rewrite Hold. rewrite app_length. cbn [length]. split.
      - intros (k & Hk & E). destruct (Nat.eq_dec k (length dts + 1)) as [->|N].
        + right. rewrite E. rewrite firstn_all2; [reflexivity|rewrite app_length; cbn; lia].
        + left. exists k. split; [lia|exact E].
      - intros [(k & Hk & E)|E].
        + exists k. split; [lia|exact E].
        + exists (length dts + 1)%nat. split; [lia|]. rewrite firstn_all2; [exact E|rewrite app_length; cbn; lia]. }
    rewrite Hnew. rewrite Es in Hl |- *. cbv zeta in *. destruct (Rge_bool (fst (sample_until tend ws dts)) tend).
    + rewrite (IH j w l Hw Hl t). split; [auto|]. intros [H|E]; [exact H|]. exists (length dts). split; [lia|].
      now rewrite firstn_all.
    + destruct (sample_until tend ws dts) as [t0 vs] eqn:E0. cbn [sstep fst snd] in *. unfold scall in Hl.
      rewrite nth_error_map in Hl. destruct (nth_error vs j) as [[w0 l0]|] eqn:Ev; [|discriminate]. cbn [option_map] in Hl.
      pose proof (alike_sample tend ws dts) as A. rewrite E0 in A. cbn [snd] in A.
      assert (w0 = SEvery) as ->.
      { clear - A Hw Ev. revert j Hw Ev. induction A as [|a b ws vs H A IH]; intros [|j] Hw Ev; try discriminate.
        - cbn in Hw, Ev. injection Hw as ->. injection Ev as ->. unfold alike in H. cbn [fst] in H. now destruct w0.
        - now apply (IH j). }
      cbn in Hl. injection Hl as <- <-. rewrite in_app_iff. rewrite (IH j SEvery l0 Hw Ev t). cbn [In].
      split; (intros [H|H]; [now left|right]); [destruct H as [H|[]]; now symmetry|left; now symmetry].
Qed.

(** So nothing is confined to the window: this one lies after the end of the simulation. *)
Theorem C85_window_refuted : exists tend nd stats dts l all,
  (0 < tend)%R /\ Forall (fun d => 0 < d)%R dts /\
  create_statistics tend 0 [nd] = Ok stats /\ map fst stats = [0] /\
  sample_until tend (map snd stats) dts = (tend, [(SEvery, l)]) /\
  (forall t, In t all <-> exists k, (k <= length dts)%nat /\ t = fst (sample_until tend (map snd stats) (firstn k dts))) /\
  l = all /\ (forall t, ~ (In t all /\ in_node_window nd t)) /\ ~ as_configured tend all nd l.
Proof.
  exists 1%R, (mknode None None (Some 10%R) (Some 1%R)), [(0, SEvery)], [1%R], [0%R; (0 + 1)%R], [0%R; (0 + 1)%R].
  assert (E1 : sample_until 1 [SEvery] [1%R] = (1%R, [(SEvery, [0; 0 + 1]%R)])).
  { unfold sample_until. cbn [fold_left fst scall map sput_log sput]. rewrite Rge_bool_false by lra.
    unfold sstep, sshorten, scall. cbn. f_equal. lra. }
  assert (E0 : fst (sample_until 1 [SEvery] []) = 0%R) by reflexivity.
  split; [lra|]. split; [repeat constructor; lra|]. split; [reflexivity|]. split; [reflexivity|]. split; [exact E1|].
  split; [|split; [reflexivity|]].
  - intros t. cbn [map snd]. split.
    + intros [<-|[<-|[]]]; [exists 0%nat|exists 1%nat]; (split; [cbn; lia|]); cbn [firstn]; [now rewrite E0|rewrite E1; cbn; lra].
    + intros (k & Hk & ->). cbn [length] in Hk. assert (k = 0 \/ k = 1)%nat as [->| ->] by lia; cbn [firstn];
        [rewrite E0; now left|rewrite E1; right; left; cbn; lra].
  - assert (N : forall t, ~ (In t [0; 0 + 1]%R /\ in_node_window (mknode None None (Some 10%R) (Some 1%R)) t)).
    { intros t (Ht & a & b & Ea & Eb & H). cbn in Ea, Eb. injection Ea as <-. injection Eb as <-. apply Rabs_def2 in H.
      destruct Ht as [<-|[<-|[]]]; lra. }
    split; [exact N|]. unfold as_configured. cbn [n_saves]. intros H. apply (N 0%R). apply H. now left.
Qed.

(** A node without numberOfSaves and without time makes no statistic, silently. *)
Theorem C85_dropped_refuted : exists tend nd, (0 < tend)%R /\ create_statistics tend 0 [nd] = Ok [].
Proof. exists 1%R, (mknode None (Some true) None None). split; [lra|reflexivity]. Qed.

(** numberOfSaves 0 makes one that is never computed. *)
Theorem C85_zero_saves_refuted : forall tend initial, exists nd stats, n_saves nd = Some 0 /\ n_initial nd = initial /\
  create_statistics tend 0 [nd] = Ok stats /\ length stats = 1%nat /\
  forall dts, Forall (fun wl => snd wl = []) (snd (sample_until tend (map snd stats) dts)).
Proof.
  intros tend initial. exists (mknode (Some 0) initial None None), [(0, SNever)]. repeat split. intros dts. cbn [map snd].
  unfold sample_until.
  assert (G : forall l (a : R * list slogged), snd a = [(SNever, [])] ->
    snd (fold_left (fun st dt => if Rge_bool (fst st) tend then st else sstep dt st) l a) = [(SNever, [])]).
  { induction l as [|d l IH]; intros [t vs] H; [exact H|]. cbn [fold_left fst]. cbn [snd] in H. subst vs.
    destruct (Rge_bool t tend); apply IH; reflexivity. }
  rewrite G by reflexivity. repeat constructor.
Qed.

(** What becomes of the mean: samples stand still at different times.  Sample 0 takes two
    steps and sample 1 takes one, both inside the window.  On one process the "mean" in
    the middle is half of sample 0; on two processes the calls of MPI_Reduce do not match.
    (The times 0, 1/2 and 1 have the places 0, 1, 2 in the order of M_Stats.) *)
Definition one_cell (x : R) : vol R := mkvol 1 1 1 (fun _ => x).
Theorem C85_window_mean_refuted : exists nd stats l0 l1,
  (forall t, (0 <= t <= 1)%R -> in_node_window nd t) /\
  create_statistics 1 0 [nd] = Ok stats /\
  sample_until 1 (map snd stats) [1 / 2; 1 / 2]%R = (1%R, [(SEvery, l0)]) /\ l0 = [0; 1 / 2; 1]%R /\
  sample_until 1 (map snd stats) [1]%R = (1%R, [(SEvery, l1)]) /\ l1 = [0; 1]%R /\
  (forall red a b, (forall x, red [x] = x) -> exists st m,
     run_statistics mean_variance red 2
       [[(0, one_cell a); (1, one_cell a); (2, one_cell a); (0, one_cell b); (2, one_cell b)]] = Ok st /\
     lookup (1, n_mean) st = Some m /\ vdat m 0 = (a / 2)%R) /\
  (forall red a b, run_statistics mean_variance red 2
     [[(0, one_cell a); (1, one_cell a); (2, one_cell a)]; [(0, one_cell b); (2, one_cell b)]] = UB).
Proof.
  exists (mknode None None (Some (1 / 2)%R) (Some 1%R)), [(0, SEvery)], [0; 1 / 2; 1]%R, [0; 1]%R. split.
  { intros t Ht. exists (1 / 2)%R, 1%R. repeat split. apply Rabs_def1; lra. }
  split; [reflexivity|]. cbn [map snd].
  assert (G : forall t l dt t', (t < 1)%R -> (t + dt = t')%R ->
    (if Rge_bool t 1 then (t, [(SEvery, l)] : list slogged) else sstep dt (t, [(SEvery, l)])) = (t', [(SEvery, l ++ [t'])])).
  { intros t l dt t' H1 H2. rewrite Rge_bool_false by lra. unfold sstep, sshorten, scall. cbn. now rewrite H2. }
  split; [|split; [reflexivity|split; [|split; [reflexivity|split]]]].
  - unfold sample_until. cbn [fold_left scall map sput_log sput fst snd app]. unfold slogged in *.
    rewrite (G 0%R [0%R] (1 / 2)%R (1 / 2)%R) by lra. cbn [fst]. rewrite (G (1 / 2)%R _ (1 / 2)%R 1%R) by lra. reflexivity.
  - unfold sample_until. cbn [fold_left scall map sput_log sput fst snd app]. unfold slogged in *.
    rewrite (G 0%R [0%R] 1%R 1%R) by lra. reflexivity.
  - intros red a b Hr. do 2 eexists. split; [vm_compute; reflexivity|]. split; [vm_compute; reflexivity|].
    cbv -[Rplus Rmult Rinv IZR Rdiv]. rewrite Hr. lra.
  - intros. vm_compute. reflexivity.
Qed.

(** C85_saves_partial at work: one save with the initial one and a window; the timestep
    the equations allow is 3. *)
Example C85_nonvacuous : exists nodes stats,
  Forall complete nodes /\ length nodes = 2%nat /\ Exists (fun nd => n_saves nd <> None) nodes /\
  create_statistics 1 0 nodes = Ok stats /\
  (1 <= fst (sample_until 1 (map snd stats) [3]%R))%R /\
  exists wls, run_samples 1 [] (map snd stats) [[3]; [3]]%R = [(1%R, wls); (1%R, wls)] /\ map snd wls = [[0; 1]; [0; 1]]%R.
Proof.
  exists [mknode (Some 1) (Some true) None None; mknode None None (Some 1%R) (Some 1%R)].
  eexists. split; [repeat constructor; cbn; try lia; discriminate|]. split; [reflexivity|].
  split; [constructor; cbn; discriminate|]. split; [reflexivity|]. cbn [map snd].
  assert (P0 : forall k, sput_log 0 (SFixed (TStat (1 / 1) true k), []) = (SFixed (TStat (1 / 1) true 1), [0%R])).
  { intros k. unfold sput_log. cbn [fst snd sput tw_put]. unfold Reqb. destruct (Req_EM_T 0 0); [|lra].
    rewrite Rge_bool_true by lra. reflexivity. }
  assert (P1 : sput_log 1 (SFixed (TStat (1 / 1) true 1), [0%R]) = (SFixed (TStat (1 / 1) true 2), [0; 1]%R)).
  { unfold sput_log. cbn [fst snd sput tw_put]. unfold Reqb. destruct (Req_EM_T 1 0); [lra|].
    rewrite Rge_bool_true by lra. reflexivity. }
  assert (E : forall k, sample_until 1 [SFixed (TStat (1 / 1) true k); SEvery] [3]%R =
    (1%R, [(SFixed (TStat (1 / 1) true 2), [0; 1]%R); (SEvery, [0; 1]%R)])).
  { intros k. unfold sample_until, scall. cbn [fold_left map fst]. rewrite P0. rewrite Rge_bool_false by lra.
    unfold sstep, sshorten. cbn [fold_left fst sadjust tw_adjust sput_log]. change (0 <? 1) with true. cbv iota.
    cbn [sput snd app]. rewrite Rmin_right by lra. change (sput_log 0 (SEvery, [])) with (SEvery, [0%R]). cbn [fst sadjust].
    replace (0 + (1 * (1 / 1) - 0))%R with 1%R by lra. unfold scall. cbn [map]. rewrite P1. reflexivity. }
  split.
  - unfold initial_of, new_stat. cbn [n_initial]. rewrite E. cbn [fst]. lra.
  - eexists. split.
    + cbn [run_samples app length skipn]. unfold new_stat. rewrite E. cbn [map fst snd]. rewrite E. reflexivity.
    + reflexivity.
Qed.

Print Assumptions C85_saves_partial.
Print Assumptions C85_window_computed.
Print Assumptions C85_window_refuted.
Print Assumptions C85_window_mean_refuted.
Print Assumptions C85_dropped_refuted.
Print Assumptions C85_zero_saves_refuted.
