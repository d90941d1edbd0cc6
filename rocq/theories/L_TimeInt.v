(** TimeIntegratedWriter. *)
From Coq Require Import ZArith Reals List Bool Lia Lra.
From Verif Require Import M_Base M_Time S_Time L_Time.
Import ListNotations.
Open Scope R_scope.

Lemma last_cons {A} (a d : A) l : List.last (a :: l) d = List.last l a.
Proof.
  revert a d. induction l as [|b l IH]; intros a d; [reflexivity|].
  change (List.last (a :: b :: l) d) with (List.last (b :: l) d). now rewrite !IH.
Qed.

Section W.
Variables time radius : R.

Definition step (c : R * R) (x : tint * list R) : res (tint * list R) :=
  r <- tint_put time radius (fst c) (snd c) (fst x);;
  Ok (fst r, match snd r with None => snd x | Some a => snd x ++ [a] end).

Lemma run_app l1 l2 x : fold_res step (l1 ++ l2) x = (y <- fold_res step l1 x;; fold_res step l2 y).
Proof.
  revert x. induction l1 as [|c l1 IH]; intros x; [reflexivity|]. cbn [app fold_res].
  destruct (step c x); cbn [bind]; auto.
Qed.

Definition in_window (c : R * R) : Prop := Rabs (fst c - time) < radius.
Definition oget (o : option R) : R := match o with Some a => a | None => 0 end.

(** Before the window has passed. *)
Lemma run_pre pre : forall last acc l, Forall (fun c => fst c < time + radius) pre ->
  exists acc', fold_res step pre (mktint last false acc, l) =
      Ok (mktint (List.last (map fst pre) last) false acc', l) /\
    oget acc' = oget acc + window_sum time radius last pre /\
    (acc' = None <-> acc = None /\ Forall (fun c => ~ in_window c) pre).
Proof.
  induction pre as [|[t u] pre IH]; intros last acc l H.
  - exists acc. simpl. split; [reflexivity|]. split; [ring|]. intuition.
  - inversion H as [|? ? H1 H2]; subst. cbn [fold_res]. unfold step at 1, tint_put. cbn [fst snd ti_written ti_acc ti_last negb andb].
    cbn [fst] in H1. rewrite Rge_bool_false by lra. cbn [andb bind fst snd].
    destruct (Rlt_dec (Rabs (t - time)) radius) as [W|W].
    + edestruct (IH t (Some (1 * oget acc + (t - last) * u + 0 * u + 0 * u + 0 * u)) l H2) as (acc' & E & S & N).
      exists acc'. split; [|split].
      * unfold oget in E. replace (List.last (map fst ((t, u) :: pre)) last) with (List.last (map fst pre) t).
        -- destruct acc; exact E.
        -- cbn [map fst]. clear. destruct pre as [|a pre]; [reflexivity|].
           cbn [map List.last]. generalize (fst a) as z. induction (map fst pre); intros; auto. cbn [List.last] in *. destruct l; auto.
      * rewrite S. cbn [window_sum oget]. destruct (Rlt_dec _ _); [|contradiction]. ring.
      * split; [intros ->|].
        -- destruct N as [N _]. destruct (N eq_refl) as [C _]. discriminate.
        -- intros [-> F]. inversion F; subst. contradiction.
    + destruct (IH t acc l H2) as (acc' & E & S & N). exists acc'. split; [|split].
      * replace (List.last (map fst ((t, u) :: pre)) last) with (List.last (map fst pre) t); [exact E|].
        cbn [map fst]. clear. destruct pre as [|a pre]; [reflexivity|].
        cbn [map List.last]. generalize (fst a) as z. induction (map fst pre); intros; auto. cbn [List.last] in *. destruct l; auto.
      * rewrite S. cbn [window_sum]. destruct (Rlt_dec _ _); [contradiction|]. ring.
      * rewrite N. split; intros [A F]; split; auto. now inversion F.
Qed.

(** After the result has been written. *)
Lemma run_post post : forall s l, ti_written s = true ->
  exists s', fold_res step post (s, l) = Ok (s', l) /\ ti_written s' = true.
Proof.
  induction post as [|c post IH]; intros s l H; [now exists s|]. cbn [fold_res]. unfold step at 1, tint_put.
  cbn [fst snd]. rewrite H. cbn [negb andb bind fst snd]. apply IH. reflexivity.
Qed.

Theorem writes pre c post : 0 < radius ->
  Forall (fun c => fst c < time + radius) pre -> time + radius <= fst c ->
  (exists s, tint_run time radius pre = Ok (s, [])) /\
  (Exists in_window pre ->
     exists s, tint_run time radius (pre ++ c :: post) = Ok (s, [window_sum time radius 0 pre / (2 * radius)])) /\
  (~ Exists in_window pre -> tint_run time radius (pre ++ c :: post) = UB).
Proof.
  intros Hr Hp Hc.
  change (tint_run time radius) with (fun calls => fold_res step calls (new_tint, [])). cbv beta. unfold new_tint.
  destruct (run_pre pre 0 None [] Hp) as (acc & E & S & N). split; [eauto|].
  assert (P : forall x, fold_res step (c :: post) x = (y <- step c x;; fold_res step post y)) by reflexivity.
  split.
  - intros Ex. rewrite run_app, E. cbn [bind]. rewrite P. unfold step at 1, tint_put.
    cbn [fst snd ti_written ti_acc ti_last negb andb]. rewrite Rge_bool_true by exact Hc. cbn [andb].
    destruct (Rlt_dec (Rabs (fst c - time)) radius) as [W|W].
    { pose proof (Rle_abs (fst c - time)). lra. }
    destruct acc as [a|].
    + cbn [bind fst snd]. edestruct (run_post post) as (s' & E' & _); [|rewrite E'; exists s'].
      * reflexivity.
      * cbn [app oget] in *. rewrite S. do 3 f_equal. field. lra.
    + exfalso. destruct N as [N _]. destruct (N eq_refl) as [_ F]. clear - Ex F.
      induction Ex; inversion F; subst; auto.
  - intros NEx. rewrite run_app, E. cbn [bind]. rewrite P. unfold step at 1, tint_put.
    cbn [fst snd ti_written ti_acc ti_last negb andb]. rewrite Rge_bool_true by exact Hc. cbn [andb].
    destruct (Rlt_dec (Rabs (fst c - time)) radius) as [W|W].
    { pose proof (Rle_abs (fst c - time)). lra. }
    assert (acc = None) as ->.
    { apply N. split; [reflexivity|]. clear - NEx. rewrite Forall_forall. intros x Hx W. apply NEx.
      apply Exists_exists. eauto. }
    reflexivity.
Qed.

(** Constant solution: lengths of the steps in the window. *)
Lemma window_const u last times :
  window_sum time radius last (map (fun t => (t, u)) times) =
  u * window_sum time radius last (map (fun t => (t, 1)) times).
Proof.
  revert last. induction times as [|t times IH]; intros last; cbn [map window_sum]; [ring|].
  rewrite IH. destruct (Rlt_dec _ _); ring.
Qed.

Lemma window_all last times :
  Forall (fun t => Rabs (t - time) < radius) times ->
  window_sum time radius last (map (fun t => (t, 1)) times) = List.last times last - last.
Proof.
  intros H. revert last. induction H as [|t times Ht H IH]; intros last; cbn [map window_sum]; [simpl; ring|].
  rewrite IH. destruct (Rlt_dec _ _); [|contradiction]. rewrite last_cons. ring.
Qed.
End W.
