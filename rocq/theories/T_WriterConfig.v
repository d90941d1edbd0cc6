(** C92: the writer and the functionals write what the configuration says. *)
From Coq Require Import ZArith Reals List Bool Lra Lia Sorted.
From Verif Require Import M_Base L_Base M_Boundary L_Boundary M_Time S_Time L_Time L_TimeInt T_Time M_StatConfig S_StatConfig T_StatConfig M_WriterConfig S_WriterConfig.
Import ListNotations.
Open Scope Z_scope.

(** Nodes for which the times can be met: positive counts and radii; windows of coarse
    saves that do not overlap. *)
Definition sound_writer (tend gdx : R) (nd : onode) : Prop :=
  match o_saves nd with
  | Some n => 0 < n /\
      match o_coarse nd with
      | None => True
      | Some c => 0 <= c /\ (0 < gdx)%R /\
          exists s, o_skips nd = Some s /\ 0 <= s /\ (IZR (2 * c) * (IZR (s + 1) * gdx) < tend / IZR n)%R
      end
  | None => forall r, o_radius nd = Some r -> o_time nd <> None /\ (0 < r)%R /\ forall n, o_snapshots nd = Some n -> 0 < n
  end.
Definition sound_functional (nd : onode) : Prop :=
  match o_time nd with
  | Some _ => exists r, o_radius nd = Some r /\ (0 < r)%R /\ forall n, o_snapshots nd = Some n -> 0 < n
  | None => exists n, o_saves nd = Some n /\ 0 < n
  end.

Definition met (o : sobs) : Prop := match o with SFixed w => meetable w | _ => True end.

Lemma snapshots_sound tm r n : (0 < r)%R -> 0 < n ->
  exists w, snapshots tm r n = Ok (SFixed w) /\ w = new_fixed (r / IZR n) false (Rmax (tm - r) 0) /\ meetable w.
Proof.
  intros Hr Hn. unfold snapshots. replace (n =? 0) with false by (symmetry; apply Z.eqb_neq; lia).
  eexists. split; [reflexivity|]. split; [reflexivity|]. split; [apply Rdiv_lt_0_compat; [exact Hr|now apply IZR_lt]|].
  right. split; [reflexivity|apply Rmax_r].
Qed.
Lemma fixed_sound tend n wi : (0 < tend)%R -> 0 < n -> meetable (new_fixed (tend / IZR n) wi 0).
Proof.
  intros Ht Hn. split; [apply Rdiv_lt_0_compat; [exact Ht|now apply IZR_lt]|]. destruct wi; [left|right]; split; auto; lra.
Qed.

Lemma writer_sound tend gdx garbage nd : (0 < tend)%R -> sound_writer tend gdx nd ->
  exists o s, writer_output tend gdx garbage nd = Ok (o, s) /\ met o /\
    (forall n, o_saves nd = Some n -> o_coarse nd = None -> o = SFixed (new_fixed (tend / IZR n) (initial_wanted nd) 0) /\ s = Raw).
Proof.
  intros Ht Hs. unfold sound_writer in Hs. unfold writer_output, initial_wanted. destruct (o_saves nd) as [n|].
  - destruct Hs as (Hn & Hc). assert (En : (n =? 0) = false) by (apply Z.eqb_neq; lia). rewrite En.
    destruct (o_coarse nd) as [c|].
    + destruct Hc as (Hc & Hg & s & Es & Hs & Hlt). rewrite Es. do 2 eexists. split; [reflexivity|]. split.
      * cbn [met meetable new_coarse]. repeat split; auto. apply Rdiv_lt_0_compat; [exact Ht|now apply IZR_lt].
      * intros ? _ ?. discriminate.
    + do 2 eexists. split; [reflexivity|]. split; [now apply fixed_sound|]. intros m Em _. injection Em as <-. auto.
  - destruct (o_radius nd) as [r|].
    + destruct (Hs r eq_refl) as (Htm & Hr & Hn). destruct (o_time nd) as [tm|]; [|congruence].
      destruct (o_snapshots nd) as [n|].
      * destruct (snapshots_sound tm r n Hr (Hn n eq_refl)) as (w & E & _ & M). rewrite E. cbn [bind].
        do 2 eexists. split; [reflexivity|]. split; [exact M|]. intros; discriminate.
      * do 2 eexists. split; [reflexivity|]. split; [exact I|]. intros; discriminate.
    + do 2 eexists. split; [reflexivity|]. split; [exact I|]. intros; discriminate.
Qed.
Lemma functional_sound tend nd : (0 < tend)%R -> sound_functional nd ->
  exists o s, functional_output tend nd = Ok (o, s) /\ met o /\
    (forall n, o_saves nd = Some n -> o_time nd = None -> o = SFixed (new_fixed (tend / IZR n) true 0) /\ s = Raw).
Proof.
  intros Ht Hs. unfold sound_functional in Hs. unfold functional_output. destruct (o_time nd) as [tm|].
  - destruct Hs as (r & Er & Hr & Hn). rewrite Er. destruct (o_snapshots nd) as [n|].
    + destruct (snapshots_sound tm r n Hr (Hn n eq_refl)) as (w & E & _ & M). rewrite E. cbn [bind].
      do 2 eexists. split; [reflexivity|]. split; [exact M|]. intros; discriminate.
    + do 2 eexists. split; [reflexivity|]. split; [exact I|]. intros; discriminate.
  - destruct Hs as (n & En & Hn). rewrite En. replace (n =? 0) with false by (symmetry; apply Z.eqb_neq; lia).
    do 2 eexists. split; [reflexivity|]. split; [now apply fixed_sound|]. intros m Em _. injection Em as <-. auto.
Qed.

(** The interval objects of any list of objects that can be met. *)
Lemma met_fixed objs : Forall met objs -> Forall meetable (fixed_obs objs).
Proof.
  unfold fixed_obs. induction 1 as [|o objs Ho H IH]; cbn [flat_map]; [constructor|].
  destruct o; cbn [app]; auto.
Qed.
(** Every object saves at its own times, up to the time reached. *)
Lemma run_saves tend objs dts : Forall met objs -> Forall (fun d => 0 < d)%R dts ->
  Forall2 (fun o wl => forall w, o = SFixed w -> saved_up_to (save_time w) (fst (sample_until tend objs dts)) (snd wl))
    objs (snd (sample_until tend objs dts)).
Proof.
  intros Hm Hd. destruct (sample_fixed tend objs dts) as (E1 & E2).
  destruct (drive_until_prefix tend (fixed_obs objs) dts) as (k & _ & Ek & _).
  pose proof (drive_saves (fixed_obs objs) (firstn k dts) (met_fixed _ Hm) (Forall_firstn _ k _ Hd)) as S.
  rewrite <- Ek, <- E1, <- E2 in S. pose proof (fixeds_all _ _ _ (alike_sample tend objs dts) S) as G.
  clear - G. revert G. generalize (fst (sample_until tend objs dts)) (snd (sample_until tend objs dts)). intros t ls G.
  induction G as [|o wl os ls' H G IH]; constructor; [|exact IH].
  intros w Ew. destruct (H w Ew) as (w' & _ & K). exact K.
Qed.
Lemma run_ends tend objs dts w M : Forall met objs -> Forall (fun d => 0 < d)%R dts ->
  In (SFixed w) objs -> tend = save_time w M -> (tend <= fst (sample_until tend objs dts))%R ->
  fst (sample_until tend objs dts) = tend.
Proof.
  intros Hm Hd Hin HM Hge. destruct (sample_fixed tend objs dts) as (E1 & _). rewrite E1 in *.
  apply Rle_antisym; [|exact Hge]. apply (until_exact tend (fixed_obs objs) dts w M); auto; [now apply met_fixed|].
  unfold fixed_obs. apply in_flat_map. exists (SFixed w). split; [exact Hin|now left].
Qed.
Lemma fixed_hits_end tend n (wi : bool) : (0 < tend)%R -> 0 < n ->
  tend = save_time (new_fixed (tend / IZR n) wi 0) (Z.to_nat (n - (if wi then 0 else 1))).
Proof.
  intros Ht Hn. cbn [save_time new_fixed]. unfold fixed_times.
  replace ((if wi then 0 else 1) + Z.of_nat (Z.to_nat (n - (if wi then 0 else 1)))) with n by (destruct wi; lia).
  assert (0 < IZR n)%R by now apply IZR_lt. field. lra.
Qed.

Lemma outputs_sound tend gdx garbage writer functionals : (0 < tend)%R ->
  (forall nd, writer = Some nd -> sound_writer tend gdx nd) -> Forall sound_functional functionals ->
  exists fs ws, create_outputs tend gdx garbage writer functionals = Ok (fs ++ ws) /\
    Forall met (map fst (fs ++ ws)) /\
    Forall2 (fun nd o => functional_output tend nd = Ok o) functionals fs /\
    match writer with None => ws = [] | Some nd => exists o, ws = [o] /\ writer_output tend gdx garbage nd = Ok o end.
Proof.
  intros Ht Hw Hf. unfold create_outputs.
  assert (F : exists fs, map_res (functional_output tend) functionals = Ok fs /\ Forall met (map fst fs) /\
    Forall2 (fun nd o => functional_output tend nd = Ok o) functionals fs).
  { clear - Ht Hf. induction Hf as [|nd l H Hf IH].
    - exists []. repeat constructor.
    - destruct IH as (fs & E & M & F). destruct (functional_sound tend nd Ht H) as (o & s & Eo & Mo & _).
      exists ((o, s) :: fs). cbn [map_res]. rewrite Eo. cbn [bind]. rewrite E. cbn [bind map fst]. repeat split; constructor; auto. }
  destruct F as (fs & E & M & F). rewrite E. cbn [bind]. destruct writer as [nd|].
  - destruct (writer_sound tend gdx garbage nd Ht (Hw nd eq_refl)) as (o & s & Eo & Mo & _). rewrite Eo. cbn [bind].
    exists fs, [(o, s)]. split; [reflexivity|]. split; [|split; [exact F|eauto]].
    rewrite map_app. apply Forall_app. split; [exact M|]. repeat constructor. exact Mo.
  - exists fs, []. rewrite app_nil_r. auto.
Qed.

(** What one interval object that passes on the solution writes in a whole run. *)
Lemma saves_written tend objs u dts j n (wi : bool) :
  (0 < tend)%R -> 0 < n -> Forall met (map fst objs) -> Forall (fun d => 0 < d)%R dts ->
  (tend <= fst (run_outputs tend objs u dts))%R ->
  nth_error objs j = Some (SFixed (new_fixed (tend / IZR n) wi 0), Raw) ->
  fst (run_outputs tend objs u dts) = tend /\
  nth_error (snd (run_outputs tend objs u dts)) j = Some (Ok (saves tend n wi u)).
Proof.
  intros Ht Hn Hm Hd Hge Hj. unfold run_outputs in *. cbn [fst snd] in *.
  assert (Hin : In (SFixed (new_fixed (tend / IZR n) wi 0)) (map fst objs)).
  { apply in_map_iff. eexists. split; [|eapply nth_error_In, Hj]. reflexivity. }
  pose proof (run_ends tend _ dts _ _ Hm Hd Hin (fixed_hits_end tend n wi Ht Hn) Hge) as E. split; [exact E|].
  pose proof (run_saves tend _ dts Hm Hd) as S. rewrite E in *. clear E Hin Hm Hge.
  revert S. generalize (snd (sample_until tend (map fst objs) dts)). revert j Hj.
  induction objs as [|[o s] objs IH]; intros [|j] Hj ls S; try discriminate.
  - cbn in Hj. injection Hj as -> ->. cbn [map fst] in S. inversion S as [|? wl ? ls' H1 H2]; subst. cbn [combine map nth_error fst snd].
    specialize (H1 _ eq_refl). cbn [save_time new_fixed] in H1. unfold saves, sink_output. do 2 f_equal. f_equal.
    now apply saved_list.
  - cbn in Hj. cbn [map fst] in S. inversion S as [|? wl ? ls' H1 H2]; subst. cbn [combine map nth_error]. now apply IH.
Qed.

(** ** C92 *)

(** Every node is created, functionals first, whatever the mixture; a run that gets to the
    end ends exactly there if some node counts saves, and then every node that counts saves
    has written the solution, or the functional of it, at the multiples of the n-th part of
    the end time, neither more nor less: the writer from 0 on if it was asked to, the
    functionals always. *)
Theorem C92_saves_partial : forall tend gdx garbage writer functionals u dts,
  (0 < tend)%R -> (forall nd, writer = Some nd -> sound_writer tend gdx nd) -> Forall sound_functional functionals ->
  Forall (fun d => 0 < d)%R dts ->
  exists objs, create_outputs tend gdx garbage writer functionals = Ok objs /\
    length objs = (length functionals + match writer with None => 0 | Some _ => 1 end)%nat /\
    ((tend <= fst (run_outputs tend objs u dts))%R ->
     (forall j nd n, nth_error functionals j = Some nd -> o_time nd = None -> o_saves nd = Some n ->
        fst (run_outputs tend objs u dts) = tend /\
        nth_error (snd (run_outputs tend objs u dts)) j = Some (Ok (saves tend n true u))) /\
     (forall nd n, writer = Some nd -> o_coarse nd = None -> o_saves nd = Some n ->
        fst (run_outputs tend objs u dts) = tend /\
        exists file, nth_error (snd (run_outputs tend objs u dts)) (length functionals) = Some (Ok file) /\
          file_as_configured tend nd u file)).
Proof.
  intros tend gdx garbage writer functionals u dts Ht Hw Hf Hd.
  destruct (outputs_sound tend gdx garbage writer functionals Ht Hw Hf) as (fs & ws & E & M & F & W).
  exists (fs ++ ws). split; [exact E|]. assert (L : length fs = length functionals) by (clear - F; induction F; cbn [length]; congruence).
  split; [rewrite app_length, L; f_equal; destruct writer; [destruct W as (? & -> & _)|subst ws]; reflexivity|].
  intros Hge. split.
  - intros j nd n Hj Hnt Hns.
    assert (Hnd : sound_functional nd) by (rewrite Forall_forall in Hf; apply Hf; eapply nth_error_In, Hj).
    destruct (functional_sound tend nd Ht Hnd) as (o & s & Eo & _ & K). destruct (K n Hns Hnt) as (-> & ->).
    assert (Hn : 0 < n) by (unfold sound_functional in Hnd; rewrite Hnt in Hnd; destruct Hnd as (m & Em & Hm); congruence).
    apply saves_written; auto.
    assert (G : nth_error fs j = Some (SFixed (new_fixed (tend / IZR n) true 0), Raw)).
    { clear - F Hj Eo. revert j Hj. induction F as [|a b l fs Hab F IH]; intros [|j] Hj; try discriminate; cbn in *.
      - injection Hj as ->. congruence.
      - now apply IH. }
    rewrite nth_error_app1; [exact G|]. apply nth_error_Some. congruence.
  - intros nd n -> Hc Hns. destruct W as (o & -> & Eo). specialize (Hw nd eq_refl).
    destruct (writer_sound tend gdx garbage nd Ht Hw) as (o' & s & Eo' & _ & K). destruct (K n Hns Hc) as (-> & ->).
    rewrite Eo in Eo'. injection Eo' as ->.
    assert (Hn : 0 < n) by (unfold sound_writer in Hw; rewrite Hns in Hw; tauto).
    assert (G : nth_error (fs ++ [(SFixed (new_fixed (tend / IZR n) (initial_wanted nd) 0), Raw)]) (length functionals) =
      Some (SFixed (new_fixed (tend / IZR n) (initial_wanted nd) 0), Raw)).
    { rewrite nth_error_app2 by lia. rewrite L, Nat.sub_diag. reflexivity. }
    destruct (saves_written tend _ u dts _ n (initial_wanted nd) Ht Hn M Hd Hge G) as (A & B). split; [exact A|].
    eexists. split; [exact B|]. unfold file_as_configured. rewrite Hns. reflexivity.
Qed.

(** One object alone. *)
Lemma one_output tend gdx garbage nd o s : writer_output tend gdx garbage nd = Ok (o, s) ->
  create_outputs tend gdx garbage (Some nd) [] = Ok [(o, s)].
Proof. intros E. unfold create_outputs. cbn [map_res bind]. rewrite E. reflexivity. Qed.
Lemma one_functional tend gdx garbage nd o s : functional_output tend nd = Ok (o, s) ->
  create_outputs tend gdx garbage None [nd] = Ok [(o, s)].
Proof. intros E. unfold create_outputs. cbn [map_res bind]. rewrite E. reflexivity. Qed.
Lemma one_run tend o s u dts : exists o' l, snd (sample_until tend [o] dts) = [(o', l)] /\
  snd (run_outputs tend [(o, s)] u dts) = [sink_output s u l (fst (run_outputs tend [(o, s)] u dts))].
Proof.
  pose proof (alike_sample tend [o] dts) as A. unfold run_outputs. cbn [map fst].
  inversion A as [|? [o' l] ? ls H A' E1 E2]; subst. inversion A'; subst. exists o', l. split; [reflexivity|]. reflexivity.
Qed.
Lemma one_fixed tend w s u dts : meetable w -> Forall (fun d => 0 < d)%R dts ->
  exists l, saved_up_to (save_time w) (fst (run_outputs tend [(SFixed w, s)] u dts)) l /\
    (0 <= fst (run_outputs tend [(SFixed w, s)] u dts))%R /\
    snd (run_outputs tend [(SFixed w, s)] u dts) = [sink_output s u l (fst (run_outputs tend [(SFixed w, s)] u dts))].
Proof.
  intros Hm Hd. destruct (one_run tend (SFixed w) s u dts) as (o' & l & E & R1). exists l.
  assert (M : Forall met [SFixed w]) by (repeat constructor; exact Hm).
  pose proof (run_saves tend [SFixed w] dts M Hd) as S. rewrite E in S. inversion S as [|? ? ? ? S1 _]; subst.
  split; [exact (S1 w eq_refl)|]. split; [|exact R1]. unfold run_outputs. cbn [fst map].
  destruct (sample_fixed tend [SFixed w] dts) as (E1 & _). rewrite E1. cbn [fixed_obs flat_map app].
  destruct (drive_until_prefix tend [w] dts) as (k & _ & Ek & _). rewrite Ek.
  apply (okall_drive [w] (firstn k dts)); [repeat constructor; exact Hm|now apply Forall_firstn].
Qed.

Lemma zero_saved w t l : saved_up_to (save_time w) t l -> save_time w 0 = 0%R -> (0 <= t)%R -> In 0%R l.
Proof.
  intros (m & -> & _ & H) E Ht. destruct m as [|m]; [lra|]. cbn [seq map]. left. exact E.
Qed.
Lemma saves_positive tend n u t v : (0 < tend)%R -> 0 < n -> In (t, v) (saves tend n false u) -> (0 < t)%R.
Proof.
  intros Ht Hn H. unfold saves, save_list in H. apply in_map_iff in H. destruct H as (t' & E & H). injection E as -> _.
  apply in_map_iff in H. destruct H as (k & <- & Hk). apply zrange_In in Hk.
  apply Rdiv_lt_0_compat; [|now apply IZR_lt]. apply Rmult_lt_0_compat; [apply IZR_lt; lia|exact Ht].
Qed.

(** A writer with a window but without numberOfSnapshots: the object that takes the average
    is created and thrown away, and the solution itself is written, at time 0 and after every
    step, inside the window or not. *)
Theorem C92_window_dropped_refuted : forall tend gdx garbage tm r u dts,
  exists nd objs file, nd = mkonode None None None None (Some tm) (Some r) None /\
    create_outputs tend gdx garbage (Some nd) [] = Ok objs /\
    snd (run_outputs tend objs u dts) = [Ok file] /\
    (forall t v, In (t, v) file <-> v = u t /\ exists k, (k <= length dts)%nat /\ t = fst (run_outputs tend objs u (firstn k dts))) /\
    (tm <> 0%R -> ~ file_as_configured tend nd u file).
Proof.
  intros tend gdx garbage tm r u dts. destruct (one_run tend SEvery Raw u dts) as (o' & l & E & R1).
  eexists _, [(SEvery, Raw)], (map (fun t => (t, u t)) l). split; [reflexivity|]. split; [reflexivity|]. split; [exact R1|].
  assert (W : forall t, In t l <-> exists k, (k <= length dts)%nat /\ t = fst (sample_until tend [SEvery] (firstn k dts))).
  { apply (C85_window_computed tend [SEvery] dts 0 o' l); [reflexivity|]. rewrite E. reflexivity. }
  assert (Q : forall t v, In (t, v) (map (fun t => (t, u t)) l) <-> v = u t /\
    exists k, (k <= length dts)%nat /\ t = fst (run_outputs tend [(SEvery, Raw)] u (firstn k dts))).
  { intros t v. rewrite in_map_iff. unfold run_outputs. cbn [fst map]. rewrite <- W. split.
    - intros (t' & Et & H). injection Et as -> <-. auto.
    - intros (-> & H). exists t. auto. }
  split; [exact Q|]. intros Hne (a & F & _).
  assert (I0 : In (0%R, u 0%R) (map (fun t => (t, u t)) l)).
  { apply Q. split; [reflexivity|]. exists 0%nat. split; [lia|]. reflexivity. }
  rewrite F in I0. destruct I0 as [H|[]]. injection H as H _. lra.
Qed.

(** The snapshots of a writer with coarse saves begin at time 0 even if told not to. *)
Theorem C92_coarse_initial_refuted : forall tend gdx garbage n c s u dts,
  (0 < tend)%R -> (0 < gdx)%R -> 0 < n -> 0 <= c -> 0 <= s -> (IZR (2 * c) * (IZR (s + 1) * gdx) < tend / IZR n)%R ->
  Forall (fun d => 0 < d)%R dts ->
  exists nd objs file, nd = mkonode (Some n) (Some false) (Some c) (Some s) None None None /\
    create_outputs tend gdx garbage (Some nd) [] = Ok objs /\
    snd (run_outputs tend objs u dts) = [Ok file] /\ In (0%R, u 0%R) file /\ ~ file_as_configured tend nd u file.
Proof.
  intros tend gdx garbage n c s u dts Ht Hg Hn Hc Hs Hlt Hd.
  set (nd := mkonode (Some n) (Some false) (Some c) (Some s) None None None).
  assert (Hnd : sound_writer tend gdx nd).
  { cbn. split; [exact Hn|]. split; [exact Hc|]. split; [exact Hg|]. exists s. auto. }
  destruct (writer_sound tend gdx garbage nd Ht Hnd) as (o & sk & Eo & M & _).
  assert (En : (n =? 0) = false) by (apply Z.eqb_neq; lia).
  assert (Eo' := Eo). cbn in Eo'. rewrite En in Eo'. injection Eo' as <- <-.
  set (w := new_coarse (tend / IZR n) c s gdx garbage) in *. cbn [met] in M.
  destruct (one_fixed tend w Raw u dts M Hd) as (l & S & T & R1).
  exists nd, [(SFixed w, Raw)], (map (fun t => (t, u t)) l). split; [reflexivity|]. split; [now apply one_output|].
  split; [exact R1|]. assert (I0 : In (0%R, u 0%R) (map (fun t => (t, u t)) l)).
  { apply in_map_iff. exists 0%R. split; [reflexivity|]. apply (zero_saved w _ _ S); [reflexivity|exact T]. }
  split; [exact I0|]. intros F. cbn in F. rewrite F in I0. apply saves_positive in I0; auto. lra.
Qed.
(** So do functionals, which do not read writeInitialTimestep. *)
Theorem C92_functional_initial_refuted : forall tend gdx garbage n u dts,
  (0 < tend)%R -> 0 < n -> Forall (fun d => 0 < d)%R dts ->
  exists nd objs file, nd = mkonode (Some n) (Some false) None None None None None /\
    create_outputs tend gdx garbage None [nd] = Ok objs /\
    snd (run_outputs tend objs u dts) = [Ok file] /\ In (0%R, u 0%R) file /\ ~ file_as_configured tend nd u file.
Proof.
  intros tend gdx garbage n u dts Ht Hn Hd.
  assert (En : (n =? 0) = false) by (apply Z.eqb_neq; lia).
  set (w := new_fixed (tend / IZR n) true 0). assert (M : meetable w) by now apply fixed_sound.
  destruct (one_fixed tend w Raw u dts M Hd) as (l & S & T & R1).
  eexists _, [(SFixed w, Raw)], (map (fun t => (t, u t)) l). split; [reflexivity|].
  split; [apply one_functional; cbn; rewrite En; reflexivity|].
  split; [exact R1|]. assert (I0 : In (0%R, u 0%R) (map (fun t => (t, u t)) l)).
  { apply in_map_iff. exists 0%R. split; [reflexivity|]. apply (zero_saved w _ _ S); [|exact T]. unfold w, save_time, new_fixed, fixed_times. change (IZR (0 + Z.of_nat 0)) with 0%R. ring. }
  split; [exact I0|]. intros F. cbn in F. rewrite F in I0. apply saves_positive in I0; auto. lra.
Qed.

(** numberOfSaves 0: a file without contents, even if the initial state is asked for. *)
Lemma never tend dts : snd (sample_until tend [SNever] dts) = [(SNever, [])].
Proof.
  unfold sample_until.
  assert (G : forall l (a : R * list slogged), snd a = [(SNever, [])] ->
    snd (fold_left (fun st dt => if Rge_bool (fst st) tend then st else sstep dt st) l a) = [(SNever, [])]).
  { induction l as [|d l IH]; intros [t vs] H; [exact H|]. cbn [fold_left fst]. cbn [snd] in H. subst vs.
    destruct (Rge_bool t tend); apply IH; reflexivity. }
  apply G. reflexivity.
Qed.
Theorem C92_zero_saves_refuted : forall tend gdx garbage initial u dts,
  exists nd objs, nd = mkonode (Some 0) initial None None None None None /\
    create_outputs tend gdx garbage (Some nd) [nd] = Ok (objs ++ objs) /\ length objs = 1%nat /\
    snd (run_outputs tend objs u dts) = [Ok []] /\ (initial = Some true -> ~ file_as_configured tend nd u []).
Proof.
  intros tend gdx garbage initial u dts. eexists _, [(SNever, Raw)]. split; [reflexivity|]. split; [reflexivity|]. split; [reflexivity|].
  split.
  - unfold run_outputs. cbn [snd map fst]. rewrite never. reflexivity.
  - intros ->. cbn. discriminate.
Qed.

(** A functional with a window and numberOfSnapshots whose first snapshot the simulation does
    not reach: finalize dereferences a null pointer. *)
Theorem C92_late_functional_refuted : forall tend gdx garbage tm r n u dts,
  (0 < r)%R -> 0 < n -> Forall (fun d => 0 < d)%R dts ->
  exists nd objs, nd = mkonode None None None None (Some tm) (Some r) (Some n) /\
    create_outputs tend gdx garbage None [nd] = Ok objs /\
    ((fst (run_outputs tend objs u dts) < Rmax (tm - r) 0 + r / IZR n)%R -> snd (run_outputs tend objs u dts) = [UB]).
Proof.
  intros tend gdx garbage tm r n u dts Hr Hn Hd. destruct (snapshots_sound tm r n Hr Hn) as (w & E & Ew & M).
  eexists _, [(SFixed w, Integral tm r)]. split; [reflexivity|]. split; [apply one_functional; cbn; rewrite E; reflexivity|].
  intros Hlt. destruct (one_fixed tend w (Integral tm r) u dts M Hd) as (l & (m & -> & S1 & S2) & T & R1). rewrite R1.
  destruct m as [|m]; [reflexivity|]. exfalso. specialize (S1 0%nat (Nat.lt_0_succ m)). 
  assert (E0 : save_time w 0 = (Rmax (tm - r) 0 + r / IZR n)%R).
  { rewrite Ew. unfold save_time, new_fixed, fixed_times. change (IZR (1 + Z.of_nat 0)) with 1%R. ring. }
  rewrite E0 in S1. lra.
Qed.
(** A writer with a window that is not over when the simulation ends writes nothing at all. *)
Theorem C92_late_writer_refuted : forall tend gdx garbage tm r n u dts,
  (0 < r)%R -> 0 < n -> Forall (fun d => 0 < d)%R dts ->
  exists nd objs, nd = mkonode None None None None (Some tm) (Some r) (Some n) /\
    create_outputs tend gdx garbage (Some nd) [] = Ok objs /\
    ((fst (run_outputs tend objs u dts) < tm + r)%R ->
     snd (run_outputs tend objs u dts) = [Ok []] /\ ~ file_as_configured tend nd u []).
Proof.
  intros tend gdx garbage tm r n u dts Hr Hn Hd. destruct (snapshots_sound tm r n Hr Hn) as (w & E & Ew & M).
  eexists _, [(SFixed w, Average tm r)]. split; [reflexivity|]. split; [apply one_output; cbn; rewrite E; reflexivity|].
  intros Hlt. split; [|intros (a & F & _); discriminate].
  destruct (one_fixed tend w (Average tm r) u dts M Hd) as (l & (m & -> & S1 & S2) & T & R1). rewrite R1. cbn [sink_output].
  set (calls := map (fun t => (t, u t)) (map (save_time w) (seq 0 m))).
  assert (P : Forall (fun c => (fst c < tm + r)%R) calls).
  { unfold calls. rewrite !Forall_map. apply Forall_forall. intros i Hi. apply in_seq in Hi. cbn [fst].
    eapply Rle_lt_trans; [apply S1; lia|exact Hlt]. }
  destruct (C17_writes_once_partial tm r calls ((tm + r)%R, 0%R) [] Hr P (Rle_refl _)) as ((s & Es) & _).
  rewrite Es. reflexivity.
Qed.

(** A functional with both a window and numberOfSaves forgets the saves: one entry, at the end.
    (A writer with both forgets the window: C92_saves_partial.) *)
Theorem C92_both_refuted : forall tend gdx garbage n initial tm r u dts,
  2 <= n ->
  exists nd objs a, nd = mkonode (Some n) initial None None (Some tm) (Some r) None /\
    create_outputs tend gdx garbage None [nd] = Ok objs /\
    snd (run_outputs tend objs u dts) = [Ok [(fst (run_outputs tend objs u dts), a)]] /\
    ~ file_as_configured tend nd u [(fst (run_outputs tend objs u dts), a)].
Proof.
  intros tend gdx garbage n initial tm r u dts Hn. destruct (one_run tend SEvery (Integral tm r) u dts) as (o' & l & E & R1).
  assert (W : In 0%R l).
  { apply (C85_window_computed tend [SEvery] dts 0 o' l); [reflexivity|rewrite E; reflexivity|]. exists 0%nat. split; [lia|reflexivity]. }
  destruct l as [|t0 l]; [destruct W|]. cbn [sink_output] in R1.
  eexists _, [(SEvery, Integral tm r)], _. split; [reflexivity|]. split; [reflexivity|]. split; [exact R1|].
  intros F. apply (f_equal (@length _)) in F. unfold initial_wanted, saves, save_list in F. cbn [o_saves o_initial] in F.
  rewrite !map_length in F. unfold zrange in F. rewrite map_length, seq_length in F. cbn [length] in F.
  destruct initial as [[|]|]; lia.
Qed.

(** The average itself: with a window that lies in the simulated time, a solution that is [v] all
    the time comes out as v (time + radius - radius / n) / (2 radius), because the time from 0 to the
    first snapshot counts as one step and the last step is left out. *)
Lemma window_const time radius v last times : Forall (fun t => Rabs (t - time) < radius)%R times ->
  window_sum time radius last (map (fun t => (t, v)) times) = (v * (List.last times last - last))%R.
Proof.
  intros H. revert last. induction H as [|t times Ht H IH]; intros last; cbn [map window_sum]; [simpl; ring|].
  rewrite IH. destruct (Rlt_dec _ _); [|contradiction]. rewrite last_cons. ring.
Qed.
Theorem C92_window_refuted : forall tend gdx garbage tm r n v dts,
  (0 < r <= tm)%R -> 0 < n -> Forall (fun d => 0 < d)%R dts ->
  exists nd objs, nd = mkonode None None None None (Some tm) (Some r) (Some n) /\
    create_outputs tend gdx garbage (Some nd) [] = Ok objs /\
    ((tm + r <= fst (run_outputs tend objs (fun _ => v) dts))%R ->
     snd (run_outputs tend objs (fun _ => v) dts) = [Ok [(tm, v * (tm + r - r / IZR n) / (2 * r))%R]] /\
     (v <> 0%R -> tm <> (r + r / IZR n)%R -> ~ file_as_configured tend nd (fun _ => v) [(tm, v * (tm + r - r / IZR n) / (2 * r))%R])).
Proof.
  intros tend gdx garbage tm r n v dts (Hr & Hrt) Hn Hd. destruct (snapshots_sound tm r n Hr Hn) as (w & E & Ew & M).
  eexists _, [(SFixed w, Average tm r)]. split; [reflexivity|]. split; [apply one_output; cbn; rewrite E; reflexivity|].
  intros Hge. assert (Pn : (0 < IZR n)%R) by now apply IZR_lt.
  assert (Pi : (0 < r / IZR n)%R) by now apply Rdiv_lt_0_compat.
  split.
  - destruct (one_fixed tend w (Average tm r) (fun _ => v) dts M Hd) as (l & (m & -> & S1 & S2) & T & R1). rewrite R1. cbn [sink_output].
    assert (Q : forall i, save_time w i = (tm - r + IZR (1 + Z.of_nat i) * (r / IZR n))%R).
    { intros i. rewrite Ew. cbn [save_time new_fixed]. unfold fixed_times. rewrite Rmax_left by lra. reflexivity. }
    set (N := Z.to_nat (2 * n - 1)). assert (QN : save_time w N = (tm + r)%R).
    { rewrite Q. unfold N. rewrite Z2Nat.id by lia. replace (1 + (2 * n - 1)) with (2 * n) by lia. rewrite mult_IZR. field. lra. }
    assert (HN : (N < m)%nat).
    { destruct (Nat.lt_ge_cases N m) as [|C]; [assumption|exfalso]. assert (save_time w m <= save_time w N)%R; [|lra].
      destruct (Nat.eq_dec m N) as [->|]; [lra|]. left. apply save_time_mono; [exact M|lia]. }
    assert (In_ : forall i, (i < N)%nat -> (tm - r < save_time w i < tm + r)%R).
    { intros i Hi. split.
      - rewrite Q. assert (0 < IZR (1 + Z.of_nat i))%R by (apply IZR_lt; lia). nra.
      - rewrite <- QN. now apply save_time_mono. }
    rewrite map_map. replace m with (N + S (m - N - 1))%nat by lia. rewrite seq_app, map_app. cbn [seq map Nat.add].
    set (pre := map (fun i => (save_time w i, v)) (seq 0 N)).
    assert (Ep : pre = map (fun t => (t, v)) (map (save_time w) (seq 0 N))) by (unfold pre; now rewrite map_map).
    assert (Fp : Forall (fun t => Rabs (t - tm) < r)%R (map (save_time w) (seq 0 N))).
    { rewrite Forall_map. apply Forall_forall. intros i Hi. apply in_seq in Hi. destruct (In_ i ltac:(lia)). apply Rabs_def1; lra. }
    assert (P : Forall (fun c => (fst c < tm + r)%R) pre).
    { unfold pre. rewrite Forall_map. apply Forall_forall. intros i Hi. apply in_seq in Hi. cbn [fst]. apply In_. lia. }
    assert (EN : exists k, N = S k /\ Z.of_nat k = 2 * n - 2) by (exists (N - 1)%nat; unfold N; lia). destruct EN as (k & EN & Ek).
    destruct (C17_writes_once_partial tm r pre (save_time w N, v) (map (fun x => (save_time w x, v)) (seq (S N) (m - N - 1))) Hr P) as (_ & W).
    { cbn [fst]. rewrite QN. apply Rle_refl. }
    destruct W as (s & Es).
    { rewrite Ep, EN. cbn [seq map]. apply Exists_cons_hd. unfold in_window. cbn [fst]. destruct (In_ 0%nat ltac:(lia)). apply Rabs_def1; lra. }
    rewrite Es. cbn [bind snd map]. do 4 f_equal. unfold window_integral. rewrite Ep, window_const by exact Fp.
    rewrite EN, seq_S, map_app. cbn [map Nat.add]. rewrite last_last, Q, Ek. replace (1 + (2 * n - 2)) with (2 * n - 1) by lia.
    rewrite minus_IZR, mult_IZR. field. lra.
  - intros Hv Htm (a & F & G). injection F as <-. specialize (G v (fun _ => eq_refl)). apply Htm.
    assert (X : (v * (tm + r - r / IZR n) = v * (2 * r))%R).
    { rewrite <- G at 2. field. lra. }
    apply Rmult_eq_reg_l in X; [lra|exact Hv].
Qed.

(** A functional with a window and without numberOfSnapshots, among any other outputs: one entry at the end, the sum
    over the steps that end in the window. *)
Lemma sum_snoc l x : fold_right Rplus 0%R (l ++ [x]) = (fold_right Rplus 0%R l + x)%R.
Proof. induction l as [|a l IH]; cbn [app fold_right]; [ring|rewrite IH; ring]. Qed.
Lemma steps_ext time radius u f g n : (forall k, (k <= n)%nat -> f k = g k) ->
  steps_in_window time radius u f n = steps_in_window time radius u g n.
Proof.
  intros H. unfold steps_in_window. f_equal. apply map_ext_in. intros k Hk. apply in_seq in Hk.
  rewrite !H by lia. reflexivity.
Qed.
Lemma every_integral tend ws u tm r j dts : nth_error ws j = Some SEvery ->
  exists l, nth_error (snd (sample_until tend ws dts)) j = Some (SEvery, l) /\ l <> [] /\
    fold_left (integral_put tm r u) l (0%R, 0%R) =
    (fst (sample_until tend ws dts), steps_in_window tm r u (fun k => fst (sample_until tend ws (firstn k dts))) (length dts)).
Proof.
  intros Hw. induction dts as [|dt dts IH] using rev_ind.
  - exists [0%R]. unfold sample_until. cbn [fold_left fst snd]. unfold scall. rewrite !nth_error_map, Hw. cbn.
    split; [reflexivity|]. split; [discriminate|]. unfold steps_in_window. cbn. f_equal. destruct (Rle_dec _ _); ring.
  - destruct IH as (l & E & Hl & F).
    assert (Es : sample_until tend ws (dts ++ [dt]) =
      (let st := sample_until tend ws dts in if Rge_bool (fst st) tend then st else sstep dt st)).
    { unfold sample_until. now rewrite fold_left_app. }
    assert (Ef : steps_in_window tm r u (fun k => fst (sample_until tend ws (firstn k (dts ++ [dt])))) (length dts) =
      steps_in_window tm r u (fun k => fst (sample_until tend ws (firstn k dts))) (length dts)).
    { apply steps_ext. intros k Hk. rewrite firstn_app. replace (k - length dts)%nat with 0%nat by lia.
      cbn [firstn]. now rewrite app_nil_r. }
    assert (El : steps_in_window tm r u (fun k => fst (sample_until tend ws (firstn k (dts ++ [dt])))) (length (dts ++ [dt])) =
      (steps_in_window tm r u (fun k => fst (sample_until tend ws (firstn k dts))) (length dts) +
       (let t := fst (sample_until tend ws (dts ++ [dt])) in
        if Rle_dec (Rabs (t - tm)) r then (t - fst (sample_until tend ws dts)) * u t else 0))%R).
    { rewrite <- Ef. rewrite app_length. cbn [length]. rewrite Nat.add_1_r. unfold steps_in_window at 1.
      rewrite seq_S, map_app. cbn [map Nat.add]. rewrite sum_snoc. unfold steps_in_window. f_equal.
      rewrite (firstn_all2 (n := S (length dts)) (dts ++ [dt])) by (rewrite app_length; cbn; lia).
      rewrite firstn_app, Nat.sub_diag, firstn_all. cbn [firstn]. rewrite app_nil_r. reflexivity. }
    rewrite El. clear El Ef. rewrite Es. cbv zeta. destruct (Rge_bool (fst (sample_until tend ws dts)) tend).
    + exists l. split; [exact E|]. split; [exact Hl|]. rewrite F. f_equal. destruct (Rle_dec _ _); ring.
    + destruct (sample_until tend ws dts) as [t0 vs]. cbn [sstep fst snd] in *. unfold scall. rewrite nth_error_map, E. cbn.
      eexists. split; [reflexivity|]. split; [intros C; apply (f_equal (@length _)) in C; rewrite app_length in C; cbn in C; lia|].
      rewrite fold_left_app, F. cbn [fold_left integral_put]. f_equal. destruct (Rle_dec _ _); ring.
Qed.
Theorem C92_integral : forall tend gdx garbage writer functionals u dts j nd tm r,
  (0 < tend)%R -> (forall wd, writer = Some wd -> sound_writer tend gdx wd) -> Forall sound_functional functionals ->
  nth_error functionals j = Some nd -> o_time nd = Some tm -> o_radius nd = Some r -> o_snapshots nd = None ->
  exists objs, create_outputs tend gdx garbage writer functionals = Ok objs /\
    nth_error (snd (run_outputs tend objs u dts)) j =
      Some (Ok [(fst (run_outputs tend objs u dts),
        steps_in_window tm r u (fun k => fst (run_outputs tend objs u (firstn k dts))) (length dts))]).
Proof.
  intros tend gdx garbage writer functionals u dts j nd tm r Ht Hw Hf Hj Etm Er Es.
  destruct (outputs_sound tend gdx garbage writer functionals Ht Hw Hf) as (fs & ws & E & M & F & W).
  exists (fs ++ ws). split; [exact E|].
  assert (G : nth_error (fs ++ ws) j = Some (SEvery, Integral tm r)).
  { assert (G : nth_error fs j = Some (SEvery, Integral tm r)).
    { assert (Eo : functional_output tend nd = Ok (SEvery, Integral tm r)) by (unfold functional_output; now rewrite Etm, Er, Es).
      clear - F Hj Eo. revert j Hj. induction F as [|a b l fs Hab F IH]; intros [|j] Hj; try discriminate; cbn in *.
      - injection Hj as ->. congruence.
      - now apply IH. }
    rewrite nth_error_app1; [exact G|]. apply nth_error_Some. congruence. }
  clear E M F W Hj. assert (G' : nth_error (map fst (fs ++ ws)) j = Some SEvery) by (rewrite nth_error_map, G; reflexivity).
  destruct (every_integral tend (map fst (fs ++ ws)) u tm r j dts G') as (l & E & Hl & I).
  unfold run_outputs. cbn [fst snd]. rewrite nth_error_map.
  assert (C : nth_error (combine (fs ++ ws) (snd (sample_until tend (map fst (fs ++ ws)) dts))) j = Some ((SEvery, Integral tm r), (SEvery, l))).
  { revert G E. generalize (fs ++ ws), (snd (sample_until tend (map fst (fs ++ ws)) dts)). clear. intros a b. revert b j.
    induction a as [|x a IH]; intros [|y b] [|j] G E; try discriminate; cbn in *; [injection G as ->; injection E as ->; reflexivity|now apply IH]. }
  refine (eq_trans (f_equal (option_map _) C) _). cbn [option_map fst snd sink_output]. destruct l as [|t0 l]; [congruence|]. rewrite I. reflexivity.
Qed.

(** C92_saves_partial at work: a writer with two saves and the initial one, a functional with one save
    and one with a window; the equations would allow a step of 3. *)
Example C92_nonvacuous : exists writer functionals objs,
  sound_writer 1 1 writer /\ Forall sound_functional functionals /\ length functionals = 2%nat /\
  create_outputs 1 1 0 (Some writer) functionals = Ok objs /\ (1 <= fst (run_outputs 1 objs (fun t => t) [3; 3]%R))%R /\
  saves 1 2 true (fun t => t) = [(0 * 1 / 2, 0 * 1 / 2); (1 * 1 / 2, 1 * 1 / 2); (2 * 1 / 2, 2 * 1 / 2)]%R.
Proof.
  exists (mkonode (Some 2) (Some true) None None None None None),
    [mkonode (Some 1) None None None None None None; mkonode None None None None (Some (1 / 2)%R) (Some (1 / 4)%R) None].
  exists [(SFixed (TFixed (1 / 1) 0 0), Raw); (SEvery, Integral (1 / 2) (1 / 4)); (SFixed (TFixed (1 / 2) 0 0), Raw)].
  split; [cbn; repeat split; lia|].
  split; [repeat constructor; cbn; [exists 1; split; [reflexivity|lia]|exists (1 / 4)%R; split; [reflexivity|split; [lra|discriminate]]]|].
  split; [reflexivity|]. split; [reflexivity|]. split; [|reflexivity].
  unfold run_outputs. cbn [map fst]. unfold sample_until.
  assert (E0 : scall 0 [(SFixed (TFixed (1 / 1) 0 0), []); (SEvery, []); (SFixed (TFixed (1 / 2) 0 0), [])] =
    [(SFixed (TFixed (1 / 1) 0 1), [0%R]); (SEvery, [0%R]); (SFixed (TFixed (1 / 2) 0 1), [0%R])]).
  { assert (P : forall T, tw_put 0 (TFixed T 0 0) = (TFixed T 0 1, true)).
    { intros T. cbn [tw_put]. rewrite Rge_bool_true by lra. reflexivity. }
    unfold scall, sput_log. cbn [map fst snd sput]. rewrite !P. reflexivity. }
  assert (E1 : forall l1 l2 l3, sstep 3 (0%R, [(SFixed (TFixed (1 / 1) 0 1), l1); (SEvery, l2); (SFixed (TFixed (1 / 2) 0 1), l3)]) =
    ((1 / 2)%R, [(SFixed (TFixed (1 / 1) 0 1), l1); (SEvery, l2 ++ [(1 / 2)%R]); (SFixed (TFixed (1 / 2) 0 2), l3 ++ [(1 / 2)%R])])).
  { intros. unfold sstep, sshorten. cbn [fold_left fst snd sadjust tw_adjust]. change (0 <? 1) with true. cbv iota.
    replace (0 + Rmin (Rmin 3 (1 * (1 / 1) + 0 - 0)) (1 * (1 / 2) + 0 - 0))%R with (1 / 2)%R
      by (rewrite (Rmin_right 3) by lra; rewrite Rmin_right by lra; lra).
    assert (P1 : tw_put (1 / 2) (TFixed (1 / 1) 0 1) = (TFixed (1 / 1) 0 1, false)) by (cbn [tw_put]; rewrite Rge_bool_false by lra; reflexivity).
    assert (P2 : tw_put (1 / 2) (TFixed (1 / 2) 0 1) = (TFixed (1 / 2) 0 2, true)) by (cbn [tw_put]; rewrite Rge_bool_true by lra; reflexivity).
    unfold scall, sput_log. cbn [map fst snd sput]. rewrite P1, P2. reflexivity. }
  cbn [map fold_left fst]. rewrite E0. cbn [fst]. rewrite (Rge_bool_false 0 1) by lra. rewrite E1. cbn [fst].
  rewrite (Rge_bool_false (1 / 2) 1) by lra. unfold sstep, sshorten. cbn [fold_left fst snd sadjust tw_adjust].
  change (0 <? 1) with true. change (0 <? 2) with true. cbv iota.
  rewrite (Rmin_right 3) by lra. rewrite Rmin_left by lra. lra.
Qed.

(** Simulations that stop before the window, and after it. *)
Example C92_late_case : fst (run_outputs 1 [(SFixed (new_fixed (1 / 2) false (Rmax (10 - 1) 0)), Integral 10 1)] (fun t => t) [1]%R) = 1%R /\
  (1 < Rmax (10 - 1) 0 + 1 / 2)%R /\ (1 < 10 + 1)%R.
Proof.
  rewrite Rmax_left by lra. split; [|lra]. unfold run_outputs. cbn [map fst]. unfold sample_until, new_fixed.
  assert (E0 : scall 0 [(SFixed (TFixed (1 / 2) (10 - 1) 1), [])] = [(SFixed (TFixed (1 / 2) (10 - 1) 1), [])]).
  { unfold scall, sput_log. cbn [map fst snd sput tw_put]. rewrite Rge_bool_false by lra. reflexivity. }
  cbn [map fold_left fst]. rewrite E0. rewrite Rge_bool_false by lra. unfold sstep, sshorten. cbn [fold_left fst snd sadjust tw_adjust].
  change (0 <? 1) with true. cbv iota. rewrite Rmin_left by lra. lra.
Qed.
Example C92_window_case : fst (run_outputs 4 [(SFixed (new_fixed (1 / 1) false (Rmax (3 - 1) 0)), Average 3 1)] (fun _ => 1%R) [3; 3]%R) = (3 + 1)%R /\
  (1 * (3 + 1 - 1 / 1) / (2 * 1) = 3 / 2)%R.
Proof.
  rewrite Rmax_left by lra. split; [|lra]. unfold run_outputs. cbn [map fst]. unfold sample_until, new_fixed.
  assert (E0 : scall 0 [(SFixed (TFixed (1 / 1) (3 - 1) 1), [])] = [(SFixed (TFixed (1 / 1) (3 - 1) 1), [])]).
  { unfold scall, sput_log. cbn [map fst snd sput tw_put]. rewrite Rge_bool_false by lra. reflexivity. }
  assert (E1 : sstep 3 (0%R, [(SFixed (TFixed (1 / 1) (3 - 1) 1), [])]) = (3%R, [(SFixed (TFixed (1 / 1) (3 - 1) 2), [3%R])])).
  { unfold sstep, sshorten. cbn [fold_left fst snd sadjust tw_adjust]. change (0 <? 1) with true. cbv iota.
    rewrite Rmin_left by lra. replace (0 + 3)%R with 3%R by ring. unfold scall, sput_log. cbn [map fst snd sput tw_put].
    rewrite Rge_bool_true by lra. reflexivity. }
  unfold slogged in *. cbn [map fold_left fst]. rewrite E0. cbn [fst]. rewrite (Rge_bool_false 0 4) by lra. rewrite E1. cbn [fst]. rewrite Rge_bool_false by lra.
  unfold sstep, sshorten. cbn [fold_left fst snd sadjust tw_adjust]. change (0 <? 2) with true. cbv iota. rewrite Rmin_right by lra. lra.
Qed.

Print Assumptions C92_saves_partial.
Print Assumptions C92_window_dropped_refuted.
Print Assumptions C92_coarse_initial_refuted.
Print Assumptions C92_functional_initial_refuted.
Print Assumptions C92_zero_saves_refuted.
Print Assumptions C92_late_functional_refuted.
Print Assumptions C92_late_writer_refuted.
Print Assumptions C92_both_refuted.
Print Assumptions C92_window_refuted.
Print Assumptions C92_integral.
