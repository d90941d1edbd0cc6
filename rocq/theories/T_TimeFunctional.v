(** Properties C62 and C63: functionals integrated over time, and functionals
    written at intervals. *)
From Coq Require Import ZArith Reals List Bool Lia Lra Permutation.
From Verif Require Import M_Base L_Base L_Loops M_Sim L_Sim M_Memory S_Memory L_Memory S_Sum L_Sum
  L_Flux M_Stats S_Stats L_Stats L_StatsRun L_Adds M_Foreach L_Foreach M_Structure S_Structure L_Structure
  T_Memory T_Variation T_Stats T_Structure M_Functional S_Functional L_Functional T_Functional T_FunctionalStats.
Import ListNotations.
Open Scope Z_scope.

(** * C63: one simulation *)

Section Writers.
Variable F : functional.
Variable f : vol R -> Z -> R.
Variable size : vol R -> cell.
Variable d : cell.
Variable P : vol R -> Prop.
Hypothesis HF : adds_weighted d P F f.
Hypothesis Hsize : forall u, P u -> size u = d.
Hypothesis Hd : 0 <= dsize d < 2 ^ 31.

Lemma time_integration_loop time radius calls v last :
  Forall (fun c => P (snd c)) calls -> has_dims d v ->
  exists v' last', fold_res (time_integration_write size F time radius) calls (Some v, last) = Ok (Some v', last') /\
    has_dims d v' /\ forall i, 0 <= i < dsize d ->
      vdat v' i = (vdat v i + windowed_sum time radius (fun u => f u i) (steps last calls))%R.
Proof.
  revert v last. induction calls as [|[t u] calls IH]; intros v last HP Hv.
  - exists v, last. split; [reflexivity|]. split; [exact Hv|]. intros i _. cbn. lra.
  - inversion HP as [|? ? Hu Hr]; subst. cbn [snd] in Hu. cbn [fold_res time_integration_write make_volumes bind steps].
    destruct (Rle_dec (Rabs (t - time)) radius) as [I|I].
    + destruct (HF v u (t - last)%R Hv Hu) as (w & Ew & Dw & Ww). rewrite Ew. cbn [bind].
      destruct (IH w t Hr Dw) as (v' & l' & E & D & W). exists v', l'. split; [exact E|]. split; [exact D|].
      intros i Hi. rewrite W, Ww by exact Hi. unfold windowed_sum. cbn [suml fold_right].
      destruct (Rle_dec (Rabs (t - time)) radius); [|contradiction]. unfold suml. lra.
    + cbn [bind]. destruct (IH v t Hr Hv) as (v' & l' & E & D & W). exists v', l'. split; [exact E|].
      split; [exact D|]. intros i Hi. rewrite W by exact Hi. unfold windowed_sum. cbn [suml fold_right].
      destruct (Rle_dec (Rabs (t - time)) radius); [contradiction|]. unfold suml. lra.
Qed.

Lemma time_integration_first time radius c calls : P (snd c) ->
  exists z, mem_zero (new_area d) = Ok z /\ has_dims d z /\ (forall i, 0 <= i < dsize d -> vdat z i = 0%R) /\
    fold_res (time_integration_write size F time radius) (c :: calls) (None, 0%R) =
    fold_res (time_integration_write size F time radius) (c :: calls) (Some z, 0%R).
Proof.
  destruct c as [t u]. cbn [snd]. intros Hu. destruct (zero_area d Hd) as (z & E & D & W). exists z. repeat split; auto.
  cbn [fold_res time_integration_write make_volumes]. rewrite Hsize, E by exact Hu. reflexivity.
Qed.

Lemma interval_write_first u : P u -> forall st, match st with Some v => has_dims d v | None => True end ->
  exists v', interval_write size F st u = Ok v' /\ has_dims d v' /\
    forall i, 0 <= i < dsize d -> vdat v' i = f u i.
Proof.
  intros Hu st Hst. unfold interval_write.
  assert (exists v, make_volumes size u st = Ok v /\ has_dims d v) as (v & Ev & Dv).
  { destruct st as [v|]; [exists v; auto|]. cbn [make_volumes]. rewrite Hsize by exact Hu.
    destruct (zero_area d Hd) as (z & E & D & _). eauto. }
  rewrite Ev. cbn [bind]. unfold mem_zero. pose proof (has_dims_size _ _ Dv) as So.
  destruct (ew_all (int_bound v) (fun _ _ => Ok 0%R) (fun _ => 0%R) v) as (z & Ez & A & B & C & W).
  { apply int_bound_small. change (elements v) with (vsize v). lia. }
  { auto. }
  rewrite Ez. cbn [bind].
  assert (Dz : has_dims d z) by (destruct d as [[nx ny] nz]; destruct Dv as (? & ? & ?); repeat split; congruence).
  destruct (HF z u 1%R Dz Hu) as (v' & E & D & W'). exists v'. split; [exact E|]. split; [exact D|].
  intros i Hi. rewrite W' by exact Hi. rewrite W by (change (elements v) with (vsize v); lia). lra.
Qed.
End Writers.

(** A functional that keeps the contract of Functional.hpp, written by a
    TimeIntegrationFunctional: the sum over the timesteps that end in the window
    of length times value after the step, for every sequence of timesteps. *)
Theorem C63_time_integration : forall F f size d P time radius calls,
  adds_weighted d P F f -> (forall u, P u -> size u = d) -> 0 <= dsize d < 2 ^ 31 ->
  calls <> [] -> Forall (fun c => P (snd c)) calls ->
  exists v, time_integration_run size F time radius calls = Ok v /\ has_dims d v /\
    forall i, 0 <= i < dsize d ->
      vdat v i = windowed_sum time radius (fun u => f u i) (steps 0 calls).
Proof.
  intros F f size d P time radius calls HF Hs Hd Hne HP. unfold time_integration_run.
  destruct calls as [|c calls]; [congruence|]. inversion HP as [|? ? Hc Hr]; subst.
  destruct (time_integration_first F size d P Hs Hd time radius c calls Hc) as (z & _ & Dz & Wz & E). rewrite E.
  destruct (time_integration_loop F f size d P HF time radius (c :: calls) z 0%R HP Dz) as (v & l & E' & D & W).
  rewrite E'. cbn [bind fst]. exists v. split; [reflexivity|]. split; [exact D|]. intros i Hi.
  rewrite W by exact Hi. rewrite Wz by exact Hi. lra.
Qed.

(** Written at intervals: every file holds exactly the value for the state
    written, nothing from earlier ones. *)
Theorem C63_interval : forall F f size d P us,
  adds_weighted d P F f -> (forall u, P u -> size u = d) -> 0 <= dsize d < 2 ^ 31 -> Forall P us ->
  exists vs, interval_run size F None us = Ok vs /\
    Forall2 (fun u v => has_dims d v /\ forall i, 0 <= i < dsize d -> vdat v i = f u i) us vs.
Proof.
  intros F f size d P us HF Hs Hd HP.
  assert (G : forall st, match st with Some v => has_dims d v | None => True end ->
    exists vs, interval_run size F st us = Ok vs /\
      Forall2 (fun u v => has_dims d v /\ forall i, 0 <= i < dsize d -> vdat v i = f u i) us vs).
  { induction us as [|u us IH]; intros st Hst; [exists []; cbn; auto|].
    inversion HP as [|? ? Hu Hr]; subst.
    destruct (interval_write_first F f size d P HF Hs Hd u Hu st Hst) as (v & E & D & W).
    cbn [interval_run]. rewrite E. cbn [bind].
    destruct (IH Hr (Some v) D) as (vs & Es & Ws). rewrite Es. cbn [bind]. exists (v :: vs). auto. }
  now apply G.
Qed.

(** * C62: over samples *)

(** What a process is called with: for each of its samples the initial state at
    time 0 and the state after every timestep. *)
Definition sample_calls (u0 : Z -> vol R) (l : Z -> list (R * vol R)) (ids : list Z) : list (R * vol R) :=
  flat_map (fun m => (0%R, u0 m) :: l m) ids.

Section Integrated.
Variable F : functional.
Variable f : vol R -> Z -> R.
Variable size : vol R -> cell.
Variable d : cell.
Variable P : vol R -> Prop.
Hypothesis HF : adds_weighted d P F f.
Hypothesis Hsize : forall u, P u -> size u = d.
Hypothesis Hd : 0 <= dsize d < 2 ^ 31.
Variables time radius : R.

Lemma integrated_later t u v last : P u -> has_dims d v -> (last < t)%R ->
  exists v', time_integrated_call size F time radius (t, u) ([((0, 0), v)], last) = Ok ([((0, 0), v')], t) /\
    has_dims d v' /\ forall i, 0 <= i < dsize d ->
      vdat v' i = (vdat v i + (if Rle_dec (Rabs (t - time)) radius then (t - last) * f u i else 0))%R.
Proof.
  intros Hu Hv Hl. unfold time_integrated_call. unfold find_or_create; cbn [lookup]; rewrite key_eqb_refl. cbn [bind].
  destruct (Rle_dec (Rabs (t - time)) radius) as [I|I].
  - destruct (Rlt_dec 0 (t - last)) as [J|J]; [|exfalso; apply J; lra].
    unfold update_item; cbn [it_name it_update lookup]; rewrite key_eqb_refl.
    destruct (HF v u (t - last)%R Hv Hu) as (w & Ew & Dw & Ww). rewrite Ew. cbn [bind replace]. rewrite key_eqb_refl.
    exists w. split; [reflexivity|]. split; [exact Dw|]. exact Ww.
  - cbn [bind]. exists v. split; [reflexivity|]. split; [exact Hv|]. intros. lra.
Qed.

Lemma integrated_sample l : forall v last, Forall (fun c => P (snd c)) l -> increasing last l -> has_dims d v ->
  (0 <= last)%R ->
  exists v' last', fold_res (time_integrated_call size F time radius) l ([((0, 0), v)], last) = Ok ([((0, 0), v')], last') /\
    (0 <= last')%R /\ has_dims d v' /\ forall i, 0 <= i < dsize d ->
      vdat v' i = (vdat v i + windowed_sum time radius (fun u => f u i) (steps last l))%R.
Proof.
  induction l as [|[t u] l IH]; intros v last HP Hi Hv Hl.
  - exists v, last. split; [reflexivity|]. split; [exact Hl|]. split; [exact Hv|]. intros i _. cbn. lra.
  - inversion HP as [|? ? Hu Hr]; subst. cbn [snd] in Hu. destruct Hi as (Ht & Hi).
    destruct (integrated_later t u v last Hu Hv Ht) as (w & Ew & Dw & Ww).
    cbn [fold_res]. rewrite Ew. cbn [bind].
    destruct (IH w t Hr Hi Dw) as (v' & l' & E & L & D & W); [lra|].
    exists v', l'. split; [exact E|]. split; [exact L|]. split; [exact D|]. intros i Hi'.
    rewrite W, Ww by exact Hi'. unfold windowed_sum. cbn [steps suml fold_right]. unfold suml. lra.
Qed.

Lemma integrated_initial u v last : P u -> (0 <= last)%R ->
  time_integrated_call size F time radius (0%R, u) ([((0, 0), v)], last) = Ok ([((0, 0), v)], 0%R).
Proof.
  intros Hu Hl. unfold time_integrated_call. unfold find_or_create; cbn [lookup]; rewrite key_eqb_refl. cbn [bind].
  destruct (Rle_dec (Rabs (0 - time)) radius); [|reflexivity].
  destruct (Rlt_dec 0 (0 - last)) as [J|J]; [exfalso; lra|reflexivity].
Qed.

Variable u0 : Z -> vol R.
Variable l : Z -> list (R * vol R).

Lemma integrated_samples ids : forall v last,
  (forall m, In m ids -> P (u0 m) /\ Forall (fun c => P (snd c)) (l m) /\ increasing 0 (l m)) ->
  has_dims d v -> (0 <= last)%R ->
  exists v' last', fold_res (time_integrated_call size F time radius) (sample_calls u0 l ids) ([((0, 0), v)], last)
      = Ok ([((0, 0), v')], last') /\
    has_dims d v' /\ forall i, 0 <= i < dsize d ->
      vdat v' i = (vdat v i + suml (fun m => windowed_sum time radius (fun u => f u i) (steps 0 (l m))) ids)%R.
Proof.
  induction ids as [|m ids IH]; intros v last H Hv Hl.
  - exists v, last. split; [reflexivity|]. split; [exact Hv|]. intros. cbn. lra.
  - destruct (H m) as (H0 & H1 & H2); [now left|]. unfold sample_calls. cbn [flat_map].
    rewrite fold_res_app. cbn [fold_res]. rewrite integrated_initial by auto. cbn [bind].
    destruct (integrated_sample (l m) v 0%R H1 H2 Hv) as (w & lw & Ew & Lw & Dw & Ww); [lra|].
    rewrite Ew. cbn [bind]. fold (sample_calls u0 l ids).
    destruct (IH w lw) as (v' & l' & E & D & W); auto; [intros; apply H; now right|].
    exists v', l'. split; [exact E|]. split; [exact D|]. intros i Hi. rewrite W, Ww by exact Hi.
    cbn [suml fold_right]. unfold suml. lra.
Qed.

Lemma integrated_process ids : ids <> [] ->
  (forall m, In m ids -> P (u0 m) /\ Forall (fun c => P (snd c)) (l m) /\ increasing 0 (l m)) ->
  exists v, time_integrated_process size F time radius (sample_calls u0 l ids) = Ok [((0, 0), v)] /\
    has_dims d v /\ forall i, 0 <= i < dsize d ->
      vdat v i = suml (fun m => windowed_sum time radius (fun u => f u i) (steps 0 (l m))) ids.
Proof.
  intros Hne H. destruct ids as [|m ids]; [congruence|].
  destruct (zero_area d Hd) as (z & Ez & Dz & Wz). unfold time_integrated_process.
  assert (E0 : fold_res (time_integrated_call size F time radius) (sample_calls u0 l (m :: ids)) ([], 0%R) =
    fold_res (time_integrated_call size F time radius) (sample_calls u0 l (m :: ids)) ([((0, 0), z)], 0%R)).
  { destruct (H m) as (H0 & _); [now left|]. unfold sample_calls. cbn [flat_map app fold_res].
    rewrite integrated_initial by (auto; lra). unfold time_integrated_call at 1, find_or_create. cbn [lookup].
    rewrite Hsize, Ez by exact H0. cbn [bind insert].
    destruct (Rle_dec (Rabs (0 - time)) radius); [|reflexivity].
    destruct (Rlt_dec 0 (0 - 0)) as [J|J]; [exfalso; lra|reflexivity]. }
  rewrite E0. destruct (integrated_samples (m :: ids) z 0%R H Dz) as (v & lv & E & D & W); [lra|].
  rewrite E. cbn [bind fst]. exists v. split; [reflexivity|]. split; [exact D|]. intros i Hi.
  rewrite W, Wz by exact Hi. lra.
Qed.
End Integrated.

(** The mean over all samples of the sums over the timesteps that end in the
    window; samples may take different timesteps, and whatever sample ran before
    on a process has no influence. *)
Theorem C62_time_integrated : forall F f size d P time radius u0 l assign M red,
  adds_weighted d P F f -> (forall u, P u -> size u = d) -> 0 <= dsize d < 2 ^ 31 ->
  0 < M -> distribution_of M assign -> (forall s, s <> [] -> reduction s (red s)) ->
  (forall m, 0 <= m < M -> P (u0 m) /\ Forall (fun c => P (snd c)) (l m) /\ increasing 0 (l m)) ->
  exists v, time_integrated_run size F time radius red (IZR M) (map (sample_calls u0 l) assign) = Ok [((0, 0), v)] /\
    has_dims d v /\ forall i, 0 <= i < dsize d ->
      vdat v i = sample_mean M (fun m => windowed_sum time radius (fun u => f u i) (steps 0 (l m))).
Proof.
  intros F f size d P time radius u0 l assign M red HF Hs Hd HM (Hne & Hperm & Hall) Hred HP.
  unfold time_integrated_run.
  set (val_of := fun i m => windowed_sum time radius (fun u => f u i) (steps 0 (l m))).
  destruct (mapM_spec (fun ids => time_integrated_process size F time radius (sample_calls u0 l ids))
    (fun ids st => exists v, st = [((0, 0), v)] /\ has_dims d v /\ forall i, 0 <= i < dsize d ->
      vdat v i = suml (val_of i) ids) assign) as (sts & Es & Hst).
  { intros ids Hi. rewrite Forall_forall in Hall.
    destruct (integrated_process F f size d P HF Hs Hd time radius u0 l ids) as (v & E & D & W); auto.
    - intros m Hm. apply HP. apply zrange_In. eapply Permutation_in; [exact Hperm|]. apply in_concat. eauto.
    - eexists. split; [exact E|]. eauto. }
  assert (Em : forall (ls : list (list Z)),
    mapM (time_integrated_process size F time radius) (map (sample_calls u0 l) ls) =
    mapM (fun ids => time_integrated_process size F time radius (sample_calls u0 l ids)) ls).
  { induction ls as [|a ls IH]; [reflexivity|]. cbn [map mapM]. now rewrite IH. }
  rewrite Em, Es. cbn [bind].
  destruct assign as [|a0 assign]; [congruence|].
  inversion Hst as [|? root ? others (v0 & -> & D0 & W0) Ho]; subst.
  assert (Fo : Forall (fun o => exists v, o = [((0, 0), v)] /\ has_dims d v) others).
  { clear -Ho. induction Ho as [|? ? ? ? (v & -> & D & _)]; constructor; eauto. }
  destruct (combine_spec red (IZR M) (fun _ => d) [((0, 0), v0)] others) as (st & E & K & W).
  { cbn. repeat constructor. intros []. }
  { eapply Forall_impl; [|exact Fo]. intros o (v & -> & _). reflexivity. }
  { intros k [<-|[]]. split; [exact Hd|]. split; [exact D0|]. eapply Forall_impl; [|exact Fo].
    intros o (v & -> & D). exact D. }
  rewrite E. destruct (W (0, 0) (or_introl eq_refl)) as (v & Lv & Dv & Wv).
  destruct st as [|[k v'] [|? ?]]; try discriminate K. cbn in K. injection K as ->.
  cbn [lookup] in Lv. rewrite key_eqb_refl in Lv. injection Lv as ->.
  exists v. split; [reflexivity|]. split; [exact Dv|]. intros i Hi. rewrite Wv by exact Hi.
  unfold sample_mean. f_equal.
  rewrite (reduction_sum _ _ (Hred (_ :: _) ltac:(discriminate))).
  rewrite <- suml_sumz, <- (suml_perm _ _ _ Hperm), suml_concat.
  cbn [suml fold_right]. change (fold_right (fun a r => (a + r)%R) 0%R) with (suml (fun a : R => a)).
  rewrite suml_map. change (vdat (val [(0, 0, v0)] (0, 0)) i) with (vdat v0 i). rewrite (W0 i Hi).
  change (fold_right (fun a r => (suml (fun m => windowed_sum time radius (fun u => f u i) (steps 0 (l m))) a + r)%R) 0%R assign)
    with (suml (suml (val_of i)) assign).
  assert (Eo : suml (fun o => vdat (val o (0, 0)) i) others = suml (suml (val_of i)) assign).
  { clear -Ho Hi. induction Ho as [|? ? ? ? (v & -> & _ & W)]; [reflexivity|].
    cbn [suml fold_right]. unfold suml at 1 in IHHo. rewrite IHHo.
    change (vdat (val [(0, 0, v)] (0, 0)) i) with (vdat v i). now rewrite (W i Hi). }
  rewrite Eo. reflexivity.
Qed.

(** * How good the sum is *)

Definition in_window (a b t t0 : R) : R := if Rle_dec (Rabs (t - (a + b) / 2)) ((b - a) / 2) then (t - t0)%R else 0%R.
Fixpoint weights (a b t0 : R) (l : list (R * vol R)) : R :=
  match l with
  | [] => 0%R
  | (t, _) :: l' => (in_window a b t t0 + weights a b t l')%R
  end.
Lemma in_window_in a b t t0 : (a <= t <= b)%R -> in_window a b t t0 = (t - t0)%R.
Proof.
  intros H. unfold in_window. destruct (Rle_dec _ _) as [|N]; [reflexivity|]. exfalso. apply N.
  apply Rabs_le. lra.
Qed.
Lemma in_window_out a b t t0 : (t < a \/ b < t)%R -> in_window a b t t0 = 0%R.
Proof.
  intros H. unfold in_window. destruct (Rle_dec _ _) as [I|]; [|reflexivity]. exfalso.
  revert I. unfold Rabs. destruct (Rcase_abs _); lra.
Qed.

Lemma weights_after a b l : forall t0, (b < t0)%R -> increasing t0 l -> weights a b t0 l = 0%R.
Proof.
  induction l as [|[t u] l IH]; intros t0 Hb Hi; [reflexivity|]. destruct Hi as (H1 & H2). cbn [weights].
  rewrite in_window_out by lra. rewrite IH by (auto; lra). lra.
Qed.

Lemma weights_from a b h l : forall t0, (a <= t0 <= b)%R -> increasing t0 l -> steps_at_most h (steps t0 l) ->
  (0 <= h)%R -> (exists c, In c l /\ b <= fst c)%R \/ t0 = b ->
  (b - h <= t0 + weights a b t0 l <= b)%R.
Proof.
  induction l as [|[t u] l IH]; intros t0 Ht Hi Hs Hh He; cbn [weights].
  - destruct He as [(c & [] & _)| ->]. lra.
  - destruct Hi as (H1 & H2). inversion Hs as [|? ? H3 H4]; subst.
    destruct (Rlt_dec b t) as [O|O].
    + rewrite in_window_out by lra. rewrite weights_after by auto. lra.
    + rewrite in_window_in by lra.
      assert (b - h <= t + weights a b t l <= b)%R; [|lra].
      apply IH; auto; [lra|]. destruct He as [(c & [<-|I] & B)| ->]; [right; cbn in B; lra|left; eauto|right; lra].
Qed.

Lemma weights_bound a b h l : forall t0, (t0 <= a <= b)%R -> increasing t0 l -> steps_at_most h (steps t0 l) ->
  (0 <= h)%R -> (exists c, In c l /\ b <= fst c)%R ->
  (Rabs (weights a b t0 l - (b - a)) <= h)%R.
Proof.
  induction l as [|[t u] l IH]; intros t0 Ht Hi Hs Hh (c & I & B); [destruct I|]. cbn [weights].
  destruct Hi as (H1 & H2). inversion Hs as [|? ? H3 H4]; subst.
  destruct (Rlt_dec t a) as [L|L].
  - rewrite in_window_out by lra. rewrite Rplus_0_l. apply IH; auto; [lra|].
    destruct I as [<-|I]; [cbn in B; lra|eauto].
  - destruct (Rlt_dec b t) as [O|O].
    + rewrite in_window_out by lra. rewrite weights_after by auto. apply Rabs_le. lra.
    + rewrite in_window_in by lra.
      pose proof (weights_from a b h l t ltac:(lra) H2 H4 Hh) as W.
      destruct W as (W1 & W2).
      { destruct I as [<-|I]; [right; cbn in B; lra|left; eauto]. }
      apply Rabs_le. lra.
Qed.

Lemma windowed_weights time radius k l : forall t0,
  windowed_sum time radius (fun _ => k) (steps t0 l) = (weights (time - radius) (time + radius) t0 l * k)%R.
Proof.
  induction l as [|[t u] l IH]; intros t0; [cbn; lra|]. unfold windowed_sum in *. cbn [steps weights suml fold_right].
  unfold suml in IH. rewrite IH. unfold in_window.
  replace ((time - radius + (time + radius)) / 2)%R with time by lra.
  replace ((time + radius - (time - radius)) / 2)%R with radius by lra.
  destruct (Rle_dec (Rabs (t - time)) radius); lra.
Qed.

(** A functional whose value is [k] for all states of the run, in a window that
    the run covers: off the integral 2 radius k by at most one timestep. *)
Lemma windowed_constant time radius h k f l :
  (0 <= time - radius)%R -> (0 <= radius)%R -> increasing 0 l -> steps_at_most h (steps 0 l) -> (0 <= h)%R ->
  (exists c, In c l /\ time + radius <= fst c)%R -> (forall c, In c l -> f (snd c) = k) ->
  (Rabs (windowed_sum time radius f (steps 0 l) - 2 * radius * k) <= h * Rabs k)%R.
Proof.
  intros Ha Hr Hi Hs Hh He Hk.
  assert (E : windowed_sum time radius f (steps 0 l) = windowed_sum time radius (fun _ => k) (steps 0 l)).
  { unfold windowed_sum. apply suml_ext. intros [[t0 t] u] I.
    assert (G : In (t, u) l).
    { clear -I. revert I. generalize 0%R. induction l as [|[t' u'] l IH]; intros a I; [destruct I|].
      cbn [steps] in I. destruct I as [I|I]; [injection I as -> -> ->; now left|right; eauto]. }
    apply Hk in G. cbn [snd] in G. now rewrite G. }
  rewrite E, windowed_weights.
  replace (weights (time - radius) (time + radius) 0 l * k - 2 * radius * k)%R
    with ((weights (time - radius) (time + radius) 0 l - ((time + radius) - (time - radius))) * k)%R by lra.
  rewrite Rabs_mult. apply Rmult_le_compat_r; [apply Rabs_pos|]. apply weights_bound; auto. lra.
Qed.

Theorem C63_constant : forall F f size d P time radius u0 l h i k,
  adds_weighted d P F f -> (forall u, P u -> size u = d) -> 0 <= dsize d < 2 ^ 31 -> 0 <= i < dsize d ->
  P u0 -> Forall (fun c => P (snd c)) l ->
  (0 <= time - radius)%R -> (0 <= radius)%R -> increasing 0 l -> steps_at_most h (steps 0 l) -> (0 <= h)%R ->
  (exists c, In c l /\ time + radius <= fst c)%R -> (forall c, In c l -> f (snd c) i = k) ->
  exists v, time_integration_run size F time radius ((0%R, u0) :: l) = Ok v /\
    (Rabs (vdat v i - 2 * radius * k) <= h * Rabs k)%R.
Proof.
  intros F f size d P time radius u0 l h i k HF Hs Hd Hi' H0 HP Ha Hr Hi Hst Hh He Hk.
  destruct (C63_time_integration F f size d P time radius ((0%R, u0) :: l)) as (v & E & _ & W); auto; [discriminate|].
  exists v. split; [exact E|]. rewrite W by exact Hi'.
  assert (E0 : windowed_sum time radius (fun u => f u i) (steps 0 ((0%R, u0) :: l)) =
    windowed_sum time radius (fun u => f u i) (steps 0 l)).
  { unfold windowed_sum. cbn [steps suml fold_right]. destruct (Rle_dec _ _); unfold suml; lra. }
  rewrite E0. now apply windowed_constant.
Qed.

(** ... and the integral itself is missed: one timestep of length 1 that ends in
    the middle of a window of length 1/2. *)
Theorem C63_exact_integral_refuted : exists time radius l v,
  increasing 0 l /\ (exists c, In c l /\ time + radius <= fst c)%R /\ (0 <= time - radius)%R /\
  time_integration_run (fun _ => (1, 1, 1)) (identity_functional (0, 0, 0)) time radius
    ((0%R, mkvol 1 1 1 (fun _ => 1%R)) :: l) = Ok v /\
  (forall c, In c l -> vdat (snd c) 0 = 1%R) /\
  (2 * radius * 1 = 1 / 2)%R /\ vdat v 0 = 1%R.
Proof.
  set (u := mkvol 1 1 1 (fun _ => 1%R)). set (l := [(1%R, u); (2%R, u)]).
  exists 1%R, (1 / 4)%R, l.
  destruct (C63_time_integration (identity_functional (0, 0, 0))
     (fun u i => interior_value (0, 0, 0) u (nth_cell (1, 1, 1) i)) (fun _ => (1, 1, 1)) (1, 1, 1)
     (has_cells (0, 0, 0) (1, 1, 1)) 1 (1 / 4) ((0%R, u) :: l)) as (v & E & _ & W).
  - apply C61_identity; cbn; lia.
  - reflexivity.
  - cbn. lia.
  - discriminate.
  - repeat constructor.
  - exists v. split; [cbn; lra|]. split; [exists (2%R, u); cbn; split; [auto|lra]|]. split; [lra|].
    split; [exact E|]. split; [intros c [<-|[<-|[]]]; reflexivity|]. split; [lra|].
    rewrite W by (cbn; lia). unfold windowed_sum, l. cbn [steps suml fold_right].
    change (interior_value (0, 0, 0) u (nth_cell (1, 1, 1) 0)) with 1%R.
    destruct (Rle_dec (Rabs (0 - 1)) (1 / 4)) as [X|_]; [rewrite Rabs_left in X by lra; lra|].
    destruct (Rle_dec (Rabs (1 - 1)) (1 / 4)) as [_|X]; [|exfalso; apply X; rewrite Rabs_right by lra; lra].
    destruct (Rle_dec (Rabs (2 - 1)) (1 / 4)) as [X|_]; [rewrite Rabs_right in X by lra; lra|]. lra.
Qed.

(** structure_cube and structure_base do not take the weight: after one timestep
    of length 1/2 the integral is 1 and 1/2, but 2 and, with the first call at
    time 0 counted as well, 2 are given. *)
Definition jump : vol R := mkvol 2 1 1 (fun i => if i =? 0 then 0%R else 1%R).
Lemma half_windowed k : windowed_sum 0 1 (fun _ => k) (steps 0 [(0%R, jump); ((1 / 2)%R, jump)]) = (k / 2)%R.
Proof.
  unfold windowed_sum. cbn [steps suml fold_right].
  destruct (Rle_dec (Rabs (1 / 2 - 0)) 1) as [_|X]; [|exfalso; apply X; rewrite Rabs_right by lra; lra].
  destruct (Rle_dec (Rabs (0 - 0)) 1) as [_|X]; [|exfalso; apply X; rewrite Rabs_right by lra; lra]. lra.
Qed.

Theorem C63_structure_cube_refuted : exists v,
  time_integration_run (fun _ => (2, 1, 1)) (structure_cube_functional (fun _ => Periodic) 1 2 1 (0, 0, 0)) 0 1
    [(0%R, jump); ((1 / 2)%R, jump)] = Ok v /\
  windowed_sum 0 1 (fun u => structure_cube_value Periodic 1 1 (0, 0, 0) (2, 1, 1) jump 1)
    (steps 0 [(0%R, jump); ((1 / 2)%R, jump)]) = 1%R /\
  vdat v 1 = 2%R.
Proof.
  destruct (zero_area (2, 1, 1)) as (z & Ez & Dz & _); [cbn; lia|].
  assert (C : forall v w, has_dims (2, 1, 1) v ->
    exists v', structure_cube_functional (fun _ => Periodic) 1 2 1 (0, 0, 0) v jump w = Ok v' /\
      has_dims (2, 1, 1) v' /\ vdat v' 1 = 2%R).
  { intros v w Hv. destruct (C61_structure_cube_computed (fun _ => Periodic) Periodic 1 2 1 (0, 0, 0) (2, 1, 1) v jump w)
      as (o & E & D & W); try (cbn; lia); auto; try match goal with |- _ <> OtherBC => discriminate end.
    exists o. split; [exact E|]. split; [exact D|]. rewrite W by lia. apply line2_cube. }
  unfold time_integration_run. cbn [fold_res time_integration_write make_volumes]. rewrite Ez. cbn [bind].
  destruct (Rle_dec (Rabs (0 - 0)) 1) as [_|X]; [|exfalso; apply X; rewrite Rabs_right by lra; lra].
  destruct (C z (0 - 0)%R Dz) as (v1 & E1 & D1 & _). rewrite E1. cbn [bind make_volumes].
  destruct (Rle_dec (Rabs (1 / 2 - 0)) 1) as [_|X]; [|exfalso; apply X; rewrite Rabs_right by lra; lra].
  destruct (C v1 (1 / 2 - 0)%R D1) as (v2 & E2 & _ & W2). rewrite E2. cbn [bind fst].
  exists v2. split; [reflexivity|]. split; [|exact W2].
  rewrite half_windowed. unfold jump. rewrite line2_cube. lra.
Qed.

Theorem C63_structure_base_refuted : exists v,
  time_integration_run (fun _ => (2, 1, 1)) (structure_base_functional 2 1 0 (0, 0, 0)) 0 1
    [(0%R, jump); ((1 / 2)%R, jump)] = Ok v /\
  windowed_sum 0 1 (fun u => structure_value Periodic 1 0 (0, 0, 0) (2, 1, 1) jump 1)
    (steps 0 [(0%R, jump); ((1 / 2)%R, jump)]) = (1 / 2)%R /\
  vdat v 1 = 2%R.
Proof.
  destruct (zero_area (2, 1, 1)) as (z & Ez & Dz & Wz); [cbn; lia|].
  assert (C : forall v w, has_dims (2, 1, 1) v ->
    exists v', structure_base_functional 2 1 0 (0, 0, 0) v jump w = Ok v' /\
      has_dims (2, 1, 1) v' /\ vdat v' 1 = (vdat v 1 + 1)%R).
  { intros v w Hv. destruct (C61_structure_base_computed 2 1 0 (0, 0, 0) (2, 1, 1) v jump w)
      as (o & E & D & W); try (cbn; lia); auto; try (repeat split; fail).
    exists o. split; [exact E|]. split; [exact D|]. rewrite W by lia. change (shrink (0, 0, 0) (2, 1, 1)) with (2, 1, 1).
    unfold jump. now rewrite line2_base. }
  unfold time_integration_run. cbn [fold_res time_integration_write make_volumes]. rewrite Ez. cbn [bind].
  destruct (Rle_dec (Rabs (0 - 0)) 1) as [_|X]; [|exfalso; apply X; rewrite Rabs_right by lra; lra].
  destruct (C z (0 - 0)%R Dz) as (v1 & E1 & D1 & W1). rewrite E1. cbn [bind make_volumes].
  destruct (Rle_dec (Rabs (1 / 2 - 0)) 1) as [_|X]; [|exfalso; apply X; rewrite Rabs_right by lra; lra].
  destruct (C v1 (1 / 2 - 0)%R D1) as (v2 & E2 & _ & W2). rewrite E2. cbn [bind fst].
  exists v2. split; [reflexivity|]. split.
  - rewrite half_windowed. unfold jump. rewrite line2_base. lra.
  - rewrite W2, W1, Wz by (cbn; lia). lra.
Qed.

(** The same as a statistic. *)
Theorem C62_structure_cube_refuted : exists v,
  time_integrated_run (fun _ => (2, 1, 1)) (structure_cube_functional (fun _ => Periodic) 1 2 1 (0, 0, 0)) 0 1
    (suml (fun a => a)) 1 (map (sample_calls (fun _ => jump) (fun _ => [((1 / 2)%R, jump)])) [[0]]) = Ok [((0, 0), v)] /\
  sample_mean 1 (fun m => windowed_sum 0 1
    (fun u => structure_cube_value Periodic 1 1 (0, 0, 0) (2, 1, 1) u 1) (steps 0 [((1 / 2)%R, jump)])) = 1%R /\
  vdat v 1 = 2%R.
Proof.
  destruct (zero_area (2, 1, 1)) as (z & Ez & Dz & _); [cbn; lia|].
  destruct (C61_structure_cube_computed (fun _ => Periodic) Periodic 1 2 1 (0, 0, 0) (2, 1, 1) z jump (1 / 2 - 0))
      as (o & E & D & W); try (cbn; lia); auto; try match goal with |- _ <> OtherBC => discriminate end.
  change (Z.of_nat 1) with 1 in E.
  assert (Ep : time_integrated_process (fun _ => (2, 1, 1)) (structure_cube_functional (fun _ => Periodic) 1 2 1 (0, 0, 0)) 0 1
    (sample_calls (fun _ => jump) (fun _ => [((1 / 2)%R, jump)]) [0]) = Ok [((0, 0), o)]).
  { unfold time_integrated_process, sample_calls. cbn [flat_map app fold_res].
    unfold time_integrated_call at 1, find_or_create. cbn [lookup]. rewrite Ez. cbn [bind insert].
    destruct (Rle_dec (Rabs (0 - 0)) 1) as [_|X]; [|exfalso; apply X; rewrite Rabs_right by lra; lra].
    destruct (Rlt_dec 0 (0 - 0)) as [X|_]; [exfalso; lra|]. cbn [bind].
    unfold time_integrated_call, find_or_create. cbn [lookup]. rewrite key_eqb_refl. cbn [bind].
    destruct (Rle_dec (Rabs (1 / 2 - 0)) 1) as [_|X]; [|exfalso; apply X; rewrite Rabs_right by lra; lra].
    destruct (Rlt_dec 0 (1 / 2 - 0)) as [_|X]; [|exfalso; lra].
    unfold update_item. cbn [it_name it_update lookup]. rewrite key_eqb_refl, E. cbn [bind replace fst].
    rewrite key_eqb_refl. reflexivity. }
  unfold time_integrated_run. cbn [map mapM]. rewrite Ep. cbn [bind].
  destruct (combine_spec (suml (fun a => a)) 1 (fun _ => (2, 1, 1)) [((0, 0), o)] []) as (st & Es & K & Ws).
  { cbn. repeat constructor. intros []. }
  { constructor. }
  { intros k [<-|[]]. split; [cbn; lia|]. split; [exact D|constructor]. }
  destruct (Ws (0, 0) (or_introl eq_refl)) as (v & Lv & Dv & Wv).
  destruct st as [|[k v'] [|? ?]]; try discriminate K. cbn in K. injection K as ->.
  cbn [lookup] in Lv. rewrite key_eqb_refl in Lv. injection Lv as ->.
  exists v. split; [exact Es|]. split.
  - unfold sample_mean, windowed_sum, sumz. change (zrange 0 1) with [0]. cbn [fold_right steps suml].
    destruct (Rle_dec (Rabs (1 / 2 - 0)) 1) as [_|X]; [|exfalso; apply X; rewrite Rabs_right by lra; lra].
    unfold jump. rewrite line2_cube. cbn. lra.
  - rewrite Wv by (cbn; lia). cbn [map suml fold_right].
    change (vdat (val [(0, 0, o)] (0, 0)) 1) with (vdat o 1). rewrite W by lia. unfold jump. rewrite line2_cube. lra.
Qed.

Print Assumptions C62_time_integrated.
Print Assumptions C62_structure_cube_refuted.
Print Assumptions C63_time_integration.
Print Assumptions C63_interval.
Print Assumptions C63_constant.
Print Assumptions C63_exact_integral_refuted.
Print Assumptions C63_structure_cube_refuted.
Print Assumptions C63_structure_base_refuted.

(** Two samples with different timesteps on one process: value 1 over [0, 1] in two
    steps, value 4 in one: the mean of 1 and 4. *)
Definition two_steps (m : Z) : list (R * vol R) :=
  if m =? 0 then [((1 / 4)%R, mkvol 1 1 1 (fun _ => 1%R)); (1%R, mkvol 1 1 1 (fun _ => 1%R))]
  else [(1%R, mkvol 1 1 1 (fun _ => 4%R))].
Example C62_example : exists v,
  time_integrated_run (fun _ => (1, 1, 1)) (identity_functional (0, 0, 0)) 0 1 (suml (fun a => a)) 2
    (map (sample_calls (fun _ => mkvol 1 1 1 (fun _ => 9%R)) two_steps) [[0; 1]]) = Ok [((0, 0), v)] /\
  vdat v 0 = (5 / 2)%R.
Proof.
  destruct (C62_time_integrated (identity_functional (0, 0, 0))
     (fun u i => interior_value (0, 0, 0) u (nth_cell (1, 1, 1) i)) (fun _ => (1, 1, 1)) (1, 1, 1)
     (has_cells (0, 0, 0) (1, 1, 1)) 0 1 (fun _ => mkvol 1 1 1 (fun _ => 9%R)) two_steps [[0; 1]] 2
     (suml (fun a => a))) as (v & E & _ & W); auto using two_samples, sum_is_reduction; try (cbn; lia).
  - apply C61_identity; cbn; lia.
  - intros m Hm. split; [repeat split|]. unfold two_steps. destruct (m =? 0); (split; [repeat constructor|cbn; lra]).
  - exists v. split; [exact E|]. rewrite W by (cbn; lia). unfold sample_mean, sumz.
    change (zrange 0 2) with [0; 1]. unfold windowed_sum. cbn [map fold_right].
    change (two_steps 0) with [((1 / 4)%R, mkvol 1 1 1 (fun _ => 1%R)); (1%R, mkvol 1 1 1 (fun _ => 1%R))].
    change (two_steps 1) with [(1%R, mkvol 1 1 1 (fun _ => 4%R))]. cbn [steps suml fold_right].
    destruct (Rle_dec (Rabs (1 / 4 - 0)) 1) as [_|X]; [|exfalso; apply X; rewrite Rabs_right by lra; lra].
    destruct (Rle_dec (Rabs (1 - 0)) 1) as [_|X]; [|exfalso; apply X; rewrite Rabs_right by lra; lra].
    change (interior_value (0, 0, 0) (mkvol 1 1 1 (fun _ => 1%R)) (nth_cell (1, 1, 1) 0)) with 1%R.
    change (interior_value (0, 0, 0) (mkvol 1 1 1 (fun _ => 4%R)) (nth_cell (1, 1, 1) 0)) with 4%R. lra.
Qed.
