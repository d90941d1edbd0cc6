(** Triple loops that write one cell per iteration. *)
From Coq Require Import ZArith List Bool Lia.
From Verif Require Import M_Base L_Base.
Import ListNotations.
Open Scope Z_scope.

(** Box of cells [lo <= coordinate < hi]. *)
Definition inbox (zlo zhi ylo yhi xlo xhi : Z) (c : cell) : bool :=
  let '(x, y, z) := c in
  (xlo <=? x) && (x <? xhi) && (ylo <=? y) && (y <? yhi) && (zlo <=? z) && (z <? zhi).

Lemma inbox_iff zlo zhi ylo yhi xlo xhi x y z :
  inbox zlo zhi ylo yhi xlo xhi (x, y, z) = true <->
  xlo <= x < xhi /\ ylo <= y < yhi /\ zlo <= z < zhi.
Proof. unfold inbox. rewrite !andb_true_iff. lia. Qed.

Lemma inbox_In zlo zhi ylo yhi xlo xhi c :
  inbox zlo zhi ylo yhi xlo xhi c = true <-> In c (box zlo zhi ylo yhi xlo xhi).
Proof. destruct c as [[x y] z]. rewrite inbox_iff, box_In. tauto. Qed.

Definition cadd (c d : cell) : cell :=
  let '(x, y, z) := c in let '(x', y', z') := d in (x + x', y + y', z + z').
Definition csub (c d : cell) : cell :=
  let '(x, y, z) := c in let '(x', y', z') := d in (x - x', y - y', z - z').

Lemma cadd_csub c d : cadd (csub c d) d = c.
Proof. destruct c as [[? ?] ?], d as [[? ?] ?]. simpl. repeat f_equal; lia. Qed.
Lemma csub_cadd c d : csub (cadd c d) d = c.
Proof. destruct c as [[? ?] ?], d as [[? ?] ?]. simpl. repeat f_equal; lia. Qed.

Lemma box_shift_NoDup zlo zhi ylo yhi xlo xhi sh :
  NoDup (map (fun c => cadd c sh) (box zlo zhi ylo yhi xlo xhi)).
Proof.
  apply FinFun.Injective_map_NoDup; [|apply box_NoDup].
  intros a b E. rewrite <- (csub_cadd a sh), <- (csub_cadd b sh). now rewrite E.
Qed.

Lemma box_shift_In zlo zhi ylo yhi xlo xhi sh c :
  In c (map (fun c => cadd c sh) (box zlo zhi ylo yhi xlo xhi)) <->
  inbox zlo zhi ylo yhi xlo xhi (csub c sh) = true.
Proof.
  rewrite in_map_iff, inbox_In. split.
  - intros [b [<- Hb]]. now rewrite csub_cadd.
  - intros H. exists (csub c sh). now rewrite cadd_csub.
Qed.

Lemma shift_not_pre zlo zhi ylo yhi xlo xhi sh (pre : list cell) i post :
  box zlo zhi ylo yhi xlo xhi = pre ++ i :: post ->
  ~ In (cadd i sh) (map (fun c => cadd c sh) pre).
Proof.
  intros E H. apply in_map_iff in H. destruct H as [j [Ej Hj]].
  assert (j = i) by (rewrite <- (csub_cadd i sh), <- (csub_cadd j sh); now rewrite Ej).
  subst j. pose proof (box_NoDup zlo zhi ylo yhi xlo xhi) as ND. rewrite E in ND.
  apply NoDup_remove_2 in ND. apply ND. apply in_or_app. now left.
Qed.

(** One volume, with accumulator. *)
Lemma for3_write_acc {A B W} zlo zhi ylo yhi xlo xhi sh (upd : W -> B -> W)
    (body : Z -> Z -> Z -> vol A * W -> res (vol A * W)) (a : cell -> A) (b : cell -> B)
    (v : vol A) (w : W) :
  (forall c, inbox zlo zhi ylo yhi xlo xhi c = true -> inr v (cadd c sh)) ->
  (forall x y z v' w', inbox zlo zhi ylo yhi xlo xhi (x, y, z) = true ->
     same_dims v v' -> vget v' (cadd (x, y, z) sh) = vget v (cadd (x, y, z) sh) ->
     body x y z (v', w') =
     (v'' <- vstorec v' (cadd (x, y, z) sh) (a (x, y, z));; Ok (v'', upd w' (b (x, y, z))))) ->
  exists v',
    for3 zlo zhi ylo yhi xlo xhi body (v, w) =
      Ok (v', fold_left (fun w c => upd w (b c)) (box zlo zhi ylo yhi xlo xhi) w) /\
    same_dims v v' /\
    (forall c, inr v c -> vget v' c =
       if inbox zlo zhi ylo yhi xlo xhi (csub c sh) then a (csub c sh) else vget v c).
Proof.
  intros Hin Hbody. rewrite for3_box.
  set (l := box zlo zhi ylo yhi xlo xhi) in *.
  destruct (seq_write (fun c => cadd c sh) (fun c _ => Ok (a c, b c)) upd a b l v w)
    as (v' & E & D & Wr & K).
  - apply box_shift_NoDup.
  - intros i Hi. apply Hin. now apply inbox_In.
  - reflexivity.
  - exists v'. split; [|split; [exact D|]].
    + rewrite <- E. clear E D Wr K v'.
      match goal with |- fold_res ?F l _ = fold_res ?G l _ =>
        destruct (fold_res_inv G
          (fun pre s => fold_res F pre (v, w) = Ok s /\ same_dims v (fst s) /\
             (forall c, inr v c -> ~ In c (map (fun c => cadd c sh) pre) ->
                        vget (fst s) c = vget v c)) l (v, w)) as (s & Es & Fs & _) end.
      * split; [reflexivity|]. split; [apply same_dims_refl|reflexivity].
      * intros pre [[x y] z] post [v1 w1] El (H1 & H2 & H3).
        assert (Hi : inbox zlo zhi ylo yhi xlo xhi (x, y, z) = true).
        { apply inbox_In. fold l. rewrite El. apply in_or_app. right. now left. }
        pose proof (Hin _ Hi) as Hr.
        assert (Hnp : vget v1 (cadd (x, y, z) sh) = vget v (cadd (x, y, z) sh)).
        { apply H3; auto. eapply shift_not_pre. exact El. }
        cbn [bind fst snd].
        destruct (cadd (x, y, z) sh) as [[x1 y1] z1] eqn:Ec.
        destruct (vstore_ok v1 x1 y1 z1 (a (x, y, z))) as (v2 & E2 & D2 & G2 & U2).
        { eapply inr_same; eauto. }
        exists (v2, upd w1 (b (x, y, z))). split.
        { unfold vstorec. rewrite E2. reflexivity. }
        split; [|split].
        -- rewrite fold_res_app, H1. cbn [bind fold_res].
           rewrite (Hbody x y z v1 w1 Hi H2) by (rewrite Ec; exact Hnp).
           rewrite Ec. unfold vstorec. rewrite E2. reflexivity.
        -- simpl. eapply same_dims_trans; eauto.
        -- intros c Hc Hn. simpl. rewrite U2.
           ++ apply H3; auto. intros X. apply Hn. rewrite map_app. apply in_or_app. now left.
           ++ eapply inr_same; eauto.
           ++ intros ->. apply Hn. rewrite map_app. apply in_or_app. right. left. exact Ec.
      * rewrite Fs, Es. reflexivity.
    + intros c Hc. destruct (inbox zlo zhi ylo yhi xlo xhi (csub c sh)) eqn:Ei.
      * rewrite <- (Wr (csub c sh)); [now rewrite cadd_csub|]. now apply inbox_In.
      * apply K; auto. intros X. apply box_shift_In in X. congruence.
Qed.

Lemma for3_write {A} zlo zhi ylo yhi xlo xhi sh
    (body : Z -> Z -> Z -> vol A -> res (vol A)) (a : cell -> A) (v : vol A) :
  (forall c, inbox zlo zhi ylo yhi xlo xhi c = true -> inr v (cadd c sh)) ->
  (forall x y z v', inbox zlo zhi ylo yhi xlo xhi (x, y, z) = true ->
     same_dims v v' -> vget v' (cadd (x, y, z) sh) = vget v (cadd (x, y, z) sh) ->
     body x y z v' = vstorec v' (cadd (x, y, z) sh) (a (x, y, z))) ->
  exists v',
    for3 zlo zhi ylo yhi xlo xhi body v = Ok v' /\
    same_dims v v' /\
    (forall c, inr v c -> vget v' c =
       if inbox zlo zhi ylo yhi xlo xhi (csub c sh) then a (csub c sh) else vget v c).
Proof.
  intros Hin Hbody.
  destruct (for3_write_acc zlo zhi ylo yhi xlo xhi sh (fun (w : unit) (_ : unit) => w)
     (fun x y z (s : vol A * unit) => v' <- body x y z (fst s);; Ok (v', snd s)) a (fun _ => tt) v tt)
    as (v' & E & D & W); auto.
  - intros. simpl. rewrite Hbody; auto.
  - exists v'. split; [|split; auto].
    rewrite (for3_box (S := vol A * unit)) in E. rewrite for3_box.
    assert (G : forall l v w,
      fold_res (fun c (s : vol A * unit) => let '(x, y, z) := c in
         v' <- body x y z (fst s);; Ok (v', snd s)) l (v, w)
      = (v' <- fold_res (fun c v => let '(x, y, z) := c in body x y z v) l v;; Ok (v', w))).
    { clear. induction l as [|[[x y] z] l IH]; intros; simpl; auto.
      destruct (body x y z v); simpl; auto. }
    match type of E with fold_res ?F ?l _ = _ =>
      replace (fold_res F l (v, tt)) with
       (fold_res (fun c (s : vol A * unit) => let '(x, y, z) := c in
         v' <- body x y z (fst s);; Ok (v', snd s)) l (v, tt)) in E end.
    2: { apply fold_res_ext. intros [[x y] z] ? _. reflexivity. }
    rewrite G in E.
    match goal with |- fold_res ?F ?l _ = _ =>
      replace (fold_res F l v) with
        (fold_res (fun c v => let '(x, y, z) := c in body x y z v) l v) end.
    2: { apply fold_res_ext. intros [[x y] z] ? _. reflexivity. }
    destruct (fold_res _ _ v); simpl in E; congruence.
Qed.

(** Two volumes of equal extents written at the same cell. *)
Lemma for3_write2 {A} zlo zhi ylo yhi xlo xhi
    (body : Z -> Z -> Z -> vol A * vol A -> res (vol A * vol A)) (a b : cell -> A) (v w : vol A) :
  same_dims v w ->
  (forall c, inbox zlo zhi ylo yhi xlo xhi c = true -> inr v c) ->
  (forall x y z v' w', inbox zlo zhi ylo yhi xlo xhi (x, y, z) = true ->
     body x y z (v', w') =
     (v'' <- vstore v' x y z (a (x, y, z));; w'' <- vstore w' x y z (b (x, y, z));;
      Ok (v'', w''))) ->
  exists v' w',
    for3 zlo zhi ylo yhi xlo xhi body (v, w) = Ok (v', w') /\
    same_dims v v' /\ same_dims w w' /\
    (forall c, inr v c -> vget v' c =
       if inbox zlo zhi ylo yhi xlo xhi c then a c else vget v c) /\
    (forall c, inr w c -> vget w' c =
       if inbox zlo zhi ylo yhi xlo xhi c then b c else vget w c).
Proof.
  intros Hd Hin Hbody. rewrite for3_box.
  set (l := box zlo zhi ylo yhi xlo xhi) in *.
  match goal with |- exists v' w', fold_res ?F _ _ = _ /\ _ =>
    destruct (fold_res_inv F
      (fun pre s => same_dims v (fst s) /\ same_dims w (snd s) /\
         (forall c, In c pre -> vget (fst s) c = a c /\ vget (snd s) c = b c) /\
         (forall c, inr v c -> ~ In c pre -> vget (fst s) c = vget v c /\ vget (snd s) c = vget w c))
      l (v, w)) as ([v' w'] & E & D1 & D2 & Wr & K) end.
  - simpl. split; [apply same_dims_refl|]. split; [apply same_dims_refl|].
    split; [intros ? []|auto].
  - intros pre [[x y] z] post [v1 w1] El (D1 & D2 & Wr & K). simpl in *.
    assert (Hi : inbox zlo zhi ylo yhi xlo xhi (x, y, z) = true).
    { apply inbox_In. fold l. rewrite El. apply in_or_app. right. now left. }
    rewrite Hbody by exact Hi.
    pose proof (Hin _ Hi) as Hr.
    destruct (vstore_ok v1 x y z (a (x, y, z))) as (v2 & E2 & D3 & G2 & U2).
    { eapply inr_same; eauto. }
    destruct (vstore_ok w1 x y z (b (x, y, z))) as (w2 & E3 & D4 & G3 & U3).
    { eapply inr_same; [|exact Hr]. apply (same_dims_trans v w w1); auto. }
    rewrite E2. cbn [bind]. rewrite E3. cbn [bind].
    exists (v2, w2). split; [reflexivity|]. simpl.
    split; [eapply same_dims_trans; eauto|]. split; [eapply same_dims_trans; eauto|].
    assert (Hpre : ~ In (x, y, z) pre).
    { pose proof (box_NoDup zlo zhi ylo yhi xlo xhi) as ND. fold l in ND. rewrite El in ND.
      apply NoDup_remove_2 in ND. intros X. apply ND. apply in_or_app. now left. }
    assert (Hinr : forall c, In c pre -> inr v c).
    { intros c Hc. apply Hin. apply inbox_In. fold l. rewrite El. apply in_or_app. now left. }
    split.
    + intros c Hc. apply in_app_or in Hc. destruct Hc as [Hc|[<-|[]]]; [|auto].
      rewrite U2, U3; auto.
      * eapply inr_same; [|apply Hinr; exact Hc]. first [assumption | apply (same_dims_trans v w w1); assumption].
      * intros ->. contradiction.
      * eapply inr_same; [|apply Hinr; exact Hc]. first [assumption | apply (same_dims_trans v w w1); assumption].
      * intros ->. contradiction.
    + intros c Hc Hn. assert (c <> (x, y, z)).
      { intros ->. apply Hn. apply in_or_app. right. now left. }
      assert (~ In c pre). { intros X. apply Hn. apply in_or_app. now left. }
      rewrite U2, U3; auto.
      * eapply inr_same; [|exact Hc]. first [assumption | apply (same_dims_trans v w w1); assumption].
      * eapply inr_same; [|exact Hc]. first [assumption | apply (same_dims_trans v w w1); assumption].
  - exists v', w'. simpl in *. split; [exact E|]. split; [exact D1|]. split; [exact D2|].
    split; intros c Hc; destruct (inbox zlo zhi ylo yhi xlo xhi c) eqn:Ei.
    + apply Wr. now apply inbox_In.
    + apply K; auto. intros X. apply inbox_In in X. congruence.
    + apply Wr. now apply inbox_In.
    + apply K; auto.
      * apply (inr_same w v c); [apply same_dims_sym; exact Hd|exact Hc].
      * intros X. apply inbox_In in X. congruence.
Qed.
