(** Closed form of the diffusion loops and the dissipation inequality. *)
From Coq Require Import ZArith Reals List Bool Lia Lra.
From Verif Require Import M_Base M_Vec M_Boundary M_Flux M_Diffusion S_Boundary S_Flux S_Sum S_Entropy S_Diffusion
  L_Base L_Loops L_Boundary L_Flux L_System L_Sum L_Conserve L_Entropy.
Import ListNotations.
Open Scope Z_scope.

(** Two volumes, written at c and at c + sh. *)
Lemma for3_write2s {A} zlo zhi ylo yhi xlo xhi sh
    (body : Z -> Z -> Z -> vol A * vol A -> res (vol A * vol A)) (a b : cell -> A) (v w : vol A) :
  same_dims v w ->
  (forall c, inbox zlo zhi ylo yhi xlo xhi c = true -> inr v c /\ inr v (cadd c sh)) ->
  (forall x y z v' w', inbox zlo zhi ylo yhi xlo xhi (x, y, z) = true ->
     body x y z (v', w') =
     (v'' <- vstore v' x y z (a (x, y, z));; w'' <- vstorec w' (cadd (x, y, z) sh) (b (x, y, z));;
      Ok (v'', w''))) ->
  exists v' w',
    for3 zlo zhi ylo yhi xlo xhi body (v, w) = Ok (v', w') /\
    same_dims v v' /\ same_dims w w' /\
    (forall c, inr v c -> vget v' c =
       if inbox zlo zhi ylo yhi xlo xhi c then a c else vget v c) /\
    (forall c, inr w c -> vget w' c =
       if inbox zlo zhi ylo yhi xlo xhi (csub c sh) then b (csub c sh) else vget w c).
Proof.
  intros Hd Hin Hbody. rewrite for3_box.
  set (l := box zlo zhi ylo yhi xlo xhi) in *.
  match goal with |- exists v' w', fold_res ?F _ _ = _ /\ _ =>
    destruct (fold_res_inv F
      (fun pre s => same_dims v (fst s) /\ same_dims w (snd s) /\
         (forall c, In c pre -> vget (fst s) c = a c /\ vget (snd s) (cadd c sh) = b c) /\
         (forall c, inr v c -> ~ In c pre -> vget (fst s) c = vget v c) /\
         (forall c, inr v c -> ~ In (csub c sh) pre -> vget (snd s) c = vget w c))
      l (v, w)) as ([v' w'] & E & D1 & D2 & Wr & K1 & K2) end.
  - simpl. split; [apply same_dims_refl|]. split; [apply same_dims_refl|].
    split; [intros ? []|auto].
  - intros pre [[x y] z] post [v1 w1] El (D1 & D2 & Wr & K1 & K2). cbn [fst snd] in *.
    assert (Hi : inbox zlo zhi ylo yhi xlo xhi (x, y, z) = true).
    { apply inbox_In. fold l. rewrite El. apply in_or_app. right. now left. }
    rewrite Hbody by exact Hi.
    destruct (Hin _ Hi) as [Hr Hr'].
    destruct (vstore_ok v1 x y z (a (x, y, z))) as (v2 & E2 & D3 & G2 & U2).
    { eapply inr_same; eauto. }
    destruct (cadd (x, y, z) sh) as [[x1 y1] z1] eqn:Ec.
    destruct (vstore_ok w1 x1 y1 z1 (b (x, y, z))) as (w2 & E3 & D4 & G3 & U3).
    { eapply inr_same; [|exact Hr']. apply (same_dims_trans v w w1); auto. }
    rewrite E2. cbn [bind]. unfold vstorec. rewrite E3. cbn [bind].
    exists (v2, w2). split; [reflexivity|]. cbn [fst snd].
    split; [eapply same_dims_trans; eauto|]. split; [eapply same_dims_trans; eauto|].
    assert (Hpre : ~ In (x, y, z) pre).
    { pose proof (box_NoDup zlo zhi ylo yhi xlo xhi) as ND. fold l in ND. rewrite El in ND.
      apply NoDup_remove_2 in ND. intros X. apply ND. apply in_or_app. now left. }
    assert (Hinr : forall c, In c pre -> inr v c /\ inr v (cadd c sh)).
    { intros c Hc. apply Hin. apply inbox_In. fold l. rewrite El. apply in_or_app. now left. }
    assert (Dw1 : same_dims v w1) by (apply (same_dims_trans v w w1); auto).
    split; [|split].
    + intros c Hc. apply in_app_or in Hc. destruct Hc as [Hc|[<-|[]]].
      * destruct (Hinr c Hc) as [I1 I2]. destruct (Wr c Hc) as [W1 W2].
        rewrite U2, U3.
        -- now split.
        -- eapply inr_same; [exact Dw1|exact I2].
        -- intros X. rewrite <- Ec in X. apply (f_equal (fun c => csub c sh)) in X. rewrite !csub_cadd in X. subst c. contradiction.
        -- eapply inr_same; [exact D1|exact I1].
        -- intros ->. contradiction.
      * rewrite Ec. now split.
    + intros c Hc Hn. rewrite U2.
      * apply K1; auto. intros X. apply Hn. apply in_or_app. now left.
      * eapply inr_same; [exact D1|exact Hc].
      * intros ->. apply Hn. apply in_or_app. right. now left.
    + intros c Hc Hn. rewrite U3.
      * apply K2; auto. intros X. apply Hn. apply in_or_app. now left.
      * eapply inr_same; [exact Dw1|exact Hc].
      * intros ->. apply Hn. apply in_or_app. right. left. rewrite <- Ec. symmetry. apply csub_cadd.
  - exists v', w'. cbn [fst snd] in *. split; [exact E|]. split; [exact D1|]. split; [exact D2|].
    split; intros c Hc.
    + destruct (inbox zlo zhi ylo yhi xlo xhi c) eqn:Ei.
      * apply Wr. now apply inbox_In.
      * apply K1; auto. intros X. apply inbox_In in X. congruence.
    + destruct (inbox zlo zhi ylo yhi xlo xhi (csub c sh)) eqn:Ei.
      * rewrite <- (cadd_csub c sh) at 1. apply Wr. now apply inbox_In.
      * apply K2.
        -- apply (inr_same w v c); [apply same_dims_sym; exact Hd|exact Hc].
        -- intros X. apply inbox_In in X. congruence.
Qed.

Lemma vload_back {A} (v : vol A) d x y z : dir d ->
  inr v (move d (-1) (x, y, z)) ->
  vload v (x - unit_ d 0) (y - unit_ d 1) (z - unit_ d 2) = Ok (vget v (move d (-1) (x, y, z))).
Proof.
  intros Hd H. rewrite <- move_unit in * by exact Hd.
  replace (x - unit_ d 0) with (x + unit_ d 0 * -1) by ring.
  replace (y - unit_ d 1) with (y + unit_ d 1 * -1) by ring.
  replace (z - unit_ d 2) with (z + unit_ d 2 * -1) by ring. now apply vload_ok.
Qed.

Section D.
Context {V : cvars} (bs : basis V) (eq : diff_eq (V := V)) (m : dmatrix).
Hypothesis Hsq : square bs eq.

(** ** Matrix algebra *)
Open Scope R_scope.
Lemma sum_comb_add (a b c : list R) : length b = length c ->
  fold_right Rplus 0 (map (fun p => fst p * snd p) (combine a (map (fun p => fst p + snd p) (combine b c)))) =
  fold_right Rplus 0 (map (fun p => fst p * snd p) (combine a b)) +
  fold_right Rplus 0 (map (fun p => fst p * snd p) (combine a c)).
Proof.
  revert b c. induction a as [|x a IH]; intros [|y b] [|z c] H; try discriminate; cbn; try ring.
  rewrite IH by now injection H. ring.
Qed.
Lemma sum_comb_scal (a b : list R) k :
  fold_right Rplus 0 (map (fun p => fst p * snd p) (combine a (map (Rmult k) b))) =
  k * fold_right Rplus 0 (map (fun p => fst p * snd p) (combine a b)).
Proof. revert b. induction a as [|x a IH]; intros [|y b]; cbn; try ring. rewrite IH. ring. Qed.
Lemma sum_comb_sym (a b : list R) :
  fold_right Rplus 0 (map (fun p => fst p * snd p) (combine a b)) =
  fold_right Rplus 0 (map (fun p => fst p * snd p) (combine b a)).
Proof. revert b. induction a as [|x a IH]; intros [|y b]; cbn; try ring. rewrite IH. ring. Qed.
Lemma sum_comb_zero (a : list R) n : fold_right Rplus 0 (map (fun p => fst p * snd p) (combine a (repeat 0 n))) = 0.
Proof. revert n. induction a as [|x a IH]; intros [|n]; cbn; try ring. rewrite IH. ring. Qed.

Lemma inner_add a b c : inner bs a (vadd b c) = inner bs a b + inner bs a c.
Proof. unfold inner. rewrite comps_add. apply sum_comb_add. now rewrite !comps_length. Qed.
Lemma inner_scal a k b : inner bs a (vscal k b) = k * inner bs a b.
Proof. unfold inner. rewrite comps_scal. apply sum_comb_scal. Qed.
Lemma inner_zero a : inner bs a vzero = 0.
Proof. unfold inner. rewrite comps_zero. apply sum_comb_zero. Qed.
Lemma inner_sym a b : inner bs a b = inner bs b a.
Proof. apply sum_comb_sym. Qed.
Lemma inner_linear a : linear (inner bs a).
Proof. split; [apply inner_zero|]. split; intros; [apply inner_add|apply inner_scal]. Qed.

(** R (diag w (R^T a - R^T b)) = sum of w_i <r_i, a - b> r_i. *)
Lemma mat_diag cols w a b : length cols = bdim bs -> length w = bdim bs ->
  mat bs cols (diag bs w (vadd (mat_t bs cols a) (vscal (-1) (mat_t bs cols b)))) =
  rank_sum bs cols w (vadd a (vscal (-1) b)).
Proof.
  intros Hc Hw. unfold mat, diag, mat_t.
  assert (La : forall y, length (map (fun c => dot bs c y) cols) = bdim bs) by (intros; now rewrite map_length).
  rewrite comps_add, comps_scal, (comps_of _ _ _ (La a)), (comps_of _ _ _ (La b)).
  rewrite comps_of.
  2: { rewrite map_length, combine_length, map_length, combine_length, !map_length, Hc, Hw. lia. }
  unfold rank_sum. clear Hsq. assert (Hl : length cols = length w) by congruence. clear Hc Hw La.
  revert w Hl. induction cols as [|c cols IH]; intros [|x w] Hl; try discriminate; [reflexivity|].
  cbn [map combine fold_right fst snd]. rewrite IH by now injection Hl. f_equal. f_equal.
  rewrite inner_add, inner_scal. reflexivity.
Qed.

Lemma weights_length l : length (weights m l) = length l.
Proof. destruct m; apply map_length. Qed.
Lemma weights_nonneg l x : In x (weights m l) -> 0 <= x.
Proof.
  destruct m; cbn; rewrite in_map_iff; intros (y & <- & _).
  - apply Rabs_pos.
  - assert (G : forall l a, 0 <= a -> 0 <= fold_left (fun a l => Rmax (Rabs l) a) l a).
    { clear. induction l as [|x l IH]; intros a H; cbn; [exact H|]. apply IH.
      apply Rle_trans with (1 := H). apply Rmax_r. }
    apply G. lra.
Qed.

(** <x, R diag(w) R^T x> >= 0 for non-negative weights. *)
Lemma rank_sum_nonneg cols w x : (forall y, In y w -> 0 <= y) -> 0 <= inner bs x (rank_sum bs cols w x).
Proof.
  unfold rank_sum. revert w. induction cols as [|c cols IH]; intros [|y w] H; cbn [combine fold_right]; rewrite ?inner_zero; try lra.
  cbn [fst snd]. rewrite inner_add, inner_scal, (inner_sym x c).
  specialize (IH w (fun z Hz => H z (or_intror Hz))). specialize (H y (or_introl eq_refl)).
  assert (0 <= inner bs c x * inner bs c x) by apply Rle_0_sqr. nra.
Qed.

Lemma average_sym a b : average a b = average b a :> V.
Proof. unfold average. f_equal. apply comp_ext. intros i. rewrite !comp_add. ring. Qed.

Definition dflux (d : Z) (l r : V) : V * R := (vscal (-1) (dissipation bs eq m d l r), 0).

Lemma dissipation_nonneg d l r :
  0 <= inner bs (dentropy eq r) (dissipation bs eq m d l r) - inner bs (dentropy eq l) (dissipation bs eq m d l r).
Proof.
  unfold dissipation. set (cols := dcols eq d _). set (w := weights m _).
  assert (E : forall X, inner bs (dentropy eq r) X - inner bs (dentropy eq l) X =
     inner bs (vadd (dentropy eq r) (vscal (-1) (dentropy eq l))) X).
  { intros X. rewrite (inner_sym _ X), (inner_sym (dentropy eq l)), (inner_sym (vadd _ _)), inner_add, inner_scal. lra. }
  rewrite E, inner_scal. assert (0 <= inner bs (vadd (dentropy eq r) (vscal (-1) (dentropy eq l)))
    (rank_sum bs cols w (vadd (dentropy eq r) (vscal (-1) (dentropy eq l))))).
  { apply rank_sum_nonneg. intros y. apply weights_nonneg. }
  lra.
Qed.
Open Scope Z_scope.

(** ** The loops *)
Lemma unit_eq d k : dir d -> dir k -> unit_ d k = if k =? d then 1 else 0.
Proof. intros _ _. unfold unit_. rewrite Z.eqb_sym. destruct (k =? d); reflexivity. Qed.

Definition rng (u : vol V) (d : Z) (c : cell) : bool :=
  inreg (unit_ d) (fun k => total u k - unit_ d k) c.

Lemma rng_iff u d c : dir d -> rng u d c = true <->
  forall k, dir k -> (if k =? d then 1 else 0) <= coord k c < total u k - (if k =? d then 1 else 0).
Proof.
  intros Hd. unfold rng. rewrite inreg_iff. split; intros H k Hk; specialize (H k Hk); now rewrite unit_eq in *.
Qed.

Lemma rng_in u d c t : dir d -> rng u d c = true -> -1 <= t <= 1 -> inr u (move d t c).
Proof.
  intros Hd H Ht. apply inr_iff. intros k Hk. rewrite coord_move by auto.
  rewrite rng_iff in H by auto. specialize (H k Hk). destruct (Z.eqb_spec k d); lia.
Qed.
Lemma rng_in0 u d c : dir d -> rng u d c = true -> inr u c.
Proof. intros Hd H. rewrite <- (move_0 d c). apply (rng_in u d); auto. lia. Qed.

Lemma project_spec d (u el er : vol V) : dir d -> same_dims u el -> same_dims u er ->
  exists el' er', project bs eq d u el er = Ok (el', er') /\ same_dims u el' /\ same_dims u er' /\
  (forall c, inr u c -> vget el' c = if rng u d c then
      mat_t bs (dcols eq d (average (vget u c) (vget u (move d (-1) c)))) (dentropy eq (vget u c)) else vget el c) /\
  (forall c, inr u c -> vget er' c = if rng u d (move d 1 c) then
      mat_t bs (dcols eq d (average (vget u (move d 1 c)) (vget u c))) (dentropy eq (vget u c)) else vget er c).
Proof.
  intros Hd D1 D2. unfold project.
  set (sh := (- unit_ d 0, - unit_ d 1, - unit_ d 2)).
  assert (C1 : forall x y z, cadd (x, y, z) sh = move d (-1) (x, y, z)).
  { intros. unfold sh. cbn [cadd]. rewrite <- move_unit by exact Hd. pteq. }
  assert (C2 : forall c, csub c sh = move d 1 c).
  { intros [[x y] z]. unfold sh. cbn [csub]. rewrite <- move_unit by exact Hd. pteq. }
  match goal with |- exists t1 t2, for3 ?q1 ?q2 ?q3 ?q4 ?q5 ?q6 ?B _ = _ /\ _ =>
    destruct (for3_write2s q1 q2 q3 q4 q5 q6 sh B
      (fun c => mat_t bs (dcols eq d (average (vget u c) (vget u (move d (-1) c)))) (dentropy eq (vget u c)))
      (fun c => mat_t bs (dcols eq d (average (vget u c) (vget u (move d (-1) c)))) (dentropy eq (vget u (move d (-1) c)))) el er)
      as (el' & er' & E & S1 & S2 & W1 & W2) end.
  - sd.
  - intros [[x y] z] H. rewrite C1. change (rng u d (x, y, z) = true) in H.
    split; (eapply inr_same; [exact D1|]); [apply (rng_in0 u d); auto|apply (rng_in u d); auto; lia].
  - intros x y z v' w' H. change (rng u d (x, y, z) = true) in H. cbn [fst snd].
    rewrite vload_ok by (apply (rng_in0 u d); auto). cbn [bind].
    rewrite vload_back by (auto; apply (rng_in u d); auto; lia). cbn [bind].
    unfold vstorec. cbn [cadd sh]. reflexivity.
  - exists el', er'. split; [exact E|]. split; [sd|]. split; [sd|]. split; intros c Hc.
    + rewrite W1 by (eapply inr_same; eauto). reflexivity.
    + rewrite W2 by (eapply inr_same; eauto). rewrite C2, move_move. change (1 + -1) with 0. rewrite move_0. reflexivity.
Qed.

Lemma tecno_copy_spec (u el er left right : vol V) :
  same_dims u el -> same_dims u er -> same_dims u left -> same_dims u right ->
  exists l' r', tecno_copy el er left right = Ok (l', r') /\ same_dims u l' /\ same_dims u r' /\
  (forall c, inr u c -> vget l' c = vget el c /\ vget r' c = vget er c).
Proof.
  intros D1 D2 D3 D4. unfold tecno_copy.
  assert (I : forall c, inbox 0 (vnz el) 0 (vny el) 0 (vnx el) c = true <-> inr u c).
  { intros [[x y] z]. rewrite inbox_iff. unfold inr. destruct D1 as (A & B & C). rewrite <- A, <- B, <- C. tauto. }
  match goal with |- exists t1 t2, for3 ?q1 ?q2 ?q3 ?q4 ?q5 ?q6 ?B _ = _ /\ _ =>
    destruct (for3_write2 q1 q2 q3 q4 q5 q6 B (vget el) (vget er) left right) as (l' & r' & E & S1 & S2 & W1 & W2) end.
  - sd.
  - intros c Hc. eapply inr_same; [exact D3|]. now apply I.
  - intros x y z v' w' H. apply I in H. cbn [fst snd].
    rewrite vload_ok by (eapply inr_same; [exact D1|exact H]). cbn [bind].
    rewrite vload_ok by (eapply inr_same; [exact D2|exact H]). reflexivity.
  - exists l', r'. split; [exact E|]. split; [sd|]. split; [sd|]. intros c Hc.
    rewrite W1, W2 by (eapply inr_same; eauto). apply I in Hc. now rewrite Hc.
Qed.

(** The value of the lambda from explicit contents. *)
Definition face_value d (u left right : cell -> V) (c : cell) : V :=
  let s := average (u (move d 1 c)) (u c) in
  vscal (1 / 2) (mat bs (dcols eq d s) (diag bs (weights m (deigs eq d s)) (vadd (left (move d 1 c)) (vscal (-1) (right c))))).

Lemma face_diffusion_spec d (u left right : vol V) x y z : dir d ->
  same_dims u left -> same_dims u right -> inr u (x, y, z) -> inr u (move d 1 (x, y, z)) ->
  face_diffusion bs eq m d u left right x y z = Ok (face_value d (vget u) (vget left) (vget right) (x, y, z)).
Proof.
  intros Hd D1 D2 H0 H1. unfold face_diffusion.
  rewrite vload_ok by (eapply inr_same; [exact D2|exact H0]). cbn [bind].
  rewrite vload_move1 by first [exact Hd | exact (inr_same u left _ D1 H1)]. cbn [bind].
  rewrite vload_move1 by auto. cbn [bind].
  rewrite vload_ok by exact H0. reflexivity.
Qed.

Lemma add_diffusion_spec d (u left right out : vol V) : dir d ->
  same_dims u left -> same_dims u right -> same_dims u out ->
  exists out', add_diffusion bs eq m d u left right out = Ok out' /\ same_dims u out' /\
  (forall c, inr u c -> vget out' c = if rng u d c then
      vadd (vget out c) (vadd (face_value d (vget u) (vget left) (vget right) c)
                              (vscal (-1) (face_value d (vget u) (vget left) (vget right) (move d (-1) c))))
      else vget out c).
Proof.
  intros Hd D1 D2 D3. unfold add_diffusion.
  match goal with |- exists t1, for3 ?q1 ?q2 ?q3 ?q4 ?q5 ?q6 ?B _ = _ /\ _ =>
    destruct (for3_write q1 q2 q3 q4 q5 q6 (0, 0, 0) B
      (fun c => vadd (vget out c) (vadd (face_value d (vget u) (vget left) (vget right) c)
                              (vscal (-1) (face_value d (vget u) (vget left) (vget right) (move d (-1) c))))) out)
      as (o & E & S & W) end.
  - intros [[x y] z] H. change (rng u d (x, y, z) = true) in H. cbn [cadd]. rewrite !Z.add_0_r.
    eapply inr_same; [exact D3|]. apply (rng_in0 u d); auto.
  - intros x y z v' H Dv Hold. change (rng u d (x, y, z) = true) in H. cbn [cadd] in *. rewrite !Z.add_0_r in *.
    pose proof (rng_in0 u d _ Hd H) as H0.
    rewrite face_diffusion_spec; auto; [|apply (rng_in u d); auto; lia]. cbn [bind].
    assert (Em : (x - unit_ d 0, y - unit_ d 1, z - unit_ d 2) = move d (-1) (x, y, z)).
    { rewrite <- move_unit by exact Hd. pteq. }
    rewrite face_diffusion_spec; auto.
    + cbn [bind]. rewrite Em. rewrite vload_ok by (eapply inr_same; [|exact H0]; sd). cbn [bind]. now rewrite Hold.
    + rewrite Em. apply (rng_in u d); auto. lia.
    + rewrite Em, move_move. apply (rng_in u d); auto. lia.
  - exists o. split; [exact E|]. split; [sd|]. intros c Hc. rewrite W by (eapply inr_same; eauto).
    replace (csub c (0, 0, 0)) with c by (destruct c as [[? ?] ?]; simpl; pteq). reflexivity.
Qed.

(** Cells at distance two from both ends in direction d. *)
Definition deep (u : vol V) (d : Z) (c : cell) : Prop :=
  forall k, dir k -> (if k =? d then 2 else 0) <= coord k c < total u k - (if k =? d then 2 else 0).

Lemma diffuse_dir_spec d (u : vol V) s out : dir d ->
  same_dims u (d_el s) -> same_dims u (d_er s) -> same_dims u (d_left s) -> same_dims u (d_right s) -> same_dims u out ->
  exists s' out', diffuse_dir bs eq m d u s out = Ok (s', out') /\
   same_dims u (d_el s') /\ same_dims u (d_er s') /\ same_dims u (d_left s') /\ same_dims u (d_right s') /\ same_dims u out' /\
   forall c, deep u d c -> vget out' c = vadd (vget out c)
     (vadd (dissipation bs eq m d (vget u c) (vget u (move d 1 c)))
           (vscal (-1) (dissipation bs eq m d (vget u (move d (-1) c)) (vget u c)))).
Proof.
  intros Hd D1 D2 D3 D4 D5. unfold diffuse_dir.
  destruct (project_spec d u (d_el s) (d_er s) Hd D1 D2) as (el & er & E1 & S1 & S2 & W1 & W2).
  rewrite E1. cbn [bind fst snd].
  destruct (tecno_copy_spec u el er (d_left s) (d_right s) S1 S2 D3 D4) as (l & r & E2 & S3 & S4 & W3).
  rewrite E2. cbn [bind fst snd].
  destruct (add_diffusion_spec d u l r out Hd S3 S4 D5) as (o & E3 & S5 & W5).
  rewrite E3. cbn [bind]. exists (mkdstate el er l r), o. cbn [d_el d_er d_left d_right].
  do 6 (split; [assumption || reflexivity|]). intros c Hc.
  assert (Hin : forall t, -2 <= t <= 1 -> inr u (move d t c)).
  { intros t Ht. apply inr_iff. intros k Hk. rewrite coord_move by auto. specialize (Hc k Hk). destruct (k =? d); lia. }
  assert (Hrg : forall t, -1 <= t <= 1 -> rng u d (move d t c) = true).
  { intros t Ht. apply rng_iff; auto. intros k Hk. rewrite coord_move by auto. specialize (Hc k Hk). destruct (k =? d); lia. }
  assert (Ir : inr u c) by (rewrite <- (move_0 d c); apply Hin; lia).
  rewrite W5 by exact Ir.
  rewrite <- (move_0 d c) at 1. rewrite Hrg by lia.
  assert (FV : forall c', inr u c' -> inr u (move d 1 c') -> rng u d (move d 1 c') = true ->
    face_value d (vget u) (vget l) (vget r) c' = dissipation bs eq m d (vget u c') (vget u (move d 1 c'))).
  { intros c' I1 I2 R1. unfold face_value, dissipation.
    rewrite (proj1 (W3 _ I2)), (proj2 (W3 _ I1)), (W1 _ I2), (W2 _ I1), R1.
    rewrite move_move. change (1 + -1) with 0. rewrite move_0.
    rewrite (average_sym (vget u c') (vget u (move d 1 c'))).
    rewrite mat_diag; [reflexivity|apply Hsq|]. rewrite weights_length. apply Hsq. }
  rewrite FV, FV; auto.
  - rewrite move_move. change (-1 + 1) with 0. now rewrite move_0.
  - apply Hin. lia.
  - rewrite move_move. apply Hin. lia.
  - rewrite move_move. apply Hrg. lia.
  - apply Hin. lia.
  - apply Hrg. lia.
Qed.

Lemma vadd_zero_r (a : V) : vadd a vzero = a.
Proof. apply comp_ext. intros i. rewrite comp_add, comp_zero. ring. Qed.
Lemma vadd_assoc (a b c : V) : vadd (vadd a b) c = vadd a (vadd b c).
Proof. apply comp_ext. intros i. rewrite !comp_add. ring. Qed.
Lemma fold_vadd {B} (f : B -> V) l a : fold_left (fun a d => vadd a (f d)) l a = vadd a (fold_left (fun a d => vadd a (f d)) l vzero).
Proof.
  revert a. induction l as [|x l IH]; intros a; cbn; [now rewrite vadd_zero_r|].
  rewrite IH, (IH (vadd vzero (f x))). rewrite <- vadd_assoc. f_equal. f_equal.
  apply comp_ext. intros i. rewrite comp_add, comp_zero. ring.
Qed.

Variables (dims g nx ny nz : Z).
Hypothesis Hdims : 1 <= dims <= 3.
Hypothesis Hg : 2 <= g.

Lemma interior_deep (u : vol V) d c : ext dims g nx ny nz u -> 0 <= d < dims -> interior dims g nx ny nz c -> deep u d c.
Proof.
  intros Hu Hd Hc k Hk. apply interior_iff with (k := k) in Hc; [|lia|exact Hk].
  rewrite (total_extents u dims g nx ny nz k) by (auto; lia). unfold ilo, ihi in Hc.
  destruct (Z.ltb_spec k dims); destruct (Z.eqb_spec k d); lia.
Qed.

Lemma ext_same (u v : vol V) : ext dims g nx ny nz u -> ext dims g nx ny nz v -> same_dims u v.
Proof. unfold ext, has_extents, same_dims. intros (A & B & C) (A' & B' & C'). repeat split; congruence. Qed.
Lemma same_ext (u v : vol V) : ext dims g nx ny nz u -> same_dims u v -> ext dims g nx ny nz v.
Proof. unfold ext, has_extents, same_dims. intros (A & B & C) (A' & B' & C'). repeat split; congruence. Qed.

Theorem apply_diffusion_spec (u out : vol V) s :
  ext dims g nx ny nz u -> ext_dstate dims g nx ny nz s -> ext dims g nx ny nz out ->
  exists s' out', apply_diffusion bs eq m dims u s out = Ok (s', out') /\ ext_dstate dims g nx ny nz s' /\ ext dims g nx ny nz out' /\
  forall c, interior dims g nx ny nz c -> vget out' c = vadd (vget out c) (diffusion_term bs eq m dims (vget u) c).
Proof.
  intros Hu (E1 & E2 & E3 & E4) Ho. unfold apply_diffusion, diffusion_term.
  assert (Hl : forall d, In d (zrange 0 dims) -> 0 <= d < dims) by (intros d H; now apply zrange_In in H).
  apply (ext_same u _ Hu) in E1. apply (ext_same u _ Hu) in E2. apply (ext_same u _ Hu) in E3.
  apply (ext_same u _ Hu) in E4. apply (ext_same u _ Hu) in Ho.
  revert s out Ho E1 E2 E3 E4 Hl.
  induction (zrange 0 dims) as [|d l IH]; intros s out Ho E1 E2 E3 E4 Hl; cbn [fold_res fold_left].
  - exists s, out. split; [reflexivity|]. split; [repeat split; apply (same_ext u); auto|]. split; [now apply (same_ext u)|].
    intros c _. now rewrite vadd_zero_r.
  - assert (Hd : 0 <= d < dims) by (apply Hl; now left).
    assert (Dd : dir d) by (unfold dir; lia).
    destruct (diffuse_dir_spec d u s out Dd E1 E2 E3 E4 Ho) as (s1 & o1 & Ed & F1 & F2 & F3 & F4 & F5 & W).
    cbn [fst snd]. rewrite Ed. cbn [bind].
    destruct (IH s1 o1 F5 F1 F2 F3 F4) as (s2 & o2 & E' & X1 & X2 & W2); [intros; apply Hl; now right|].
    exists s2, o2. split; [exact E'|]. split; [exact X1|]. split; [exact X2|]. intros c Hc.
    rewrite W2 by exact Hc. rewrite W by (now apply interior_deep).
    rewrite vadd_assoc. f_equal. rewrite (fold_vadd _ l (vadd vzero _)). f_equal.
    apply comp_ext. intros i. rewrite !comp_add, comp_zero. ring.
Qed.

(** The term is the right hand side of the two-point flux
    -(dissipation). *)
Lemma term_rhs (u : cell -> V) c : diffusion_term bs eq m dims u c = rhs dims (Flux2 dflux) no_reconstruction u c.
Proof.
  unfold diffusion_term, rhs.
  assert (G : forall l a b, a = b -> 
     fold_left (fun a d => vadd a (vadd (dissipation bs eq m d (u c) (u (move d 1 c)))
                   (vscal (-1) (dissipation bs eq m d (u (move d (-1) c)) (u c))))) l a =
     fold_left (fun a d => vadd a (vadd (fst (iface (Flux2 dflux) no_reconstruction d u (move d (-1) c)))
                   (vscal (-1) (fst (iface (Flux2 dflux) no_reconstruction d u c))))) l b).
  { induction l as [|d l IH]; intros a b Hab; cbn [fold_left]; [exact Hab|]. apply IH. rewrite Hab. f_equal.
    unfold iface. rewrite !rec_none. unfold dflux. cbn [fst snd]. rewrite move_move. change (-1 + 1) with 0. rewrite move_0.
    apply comp_ext. intros i. rewrite !comp_add, !comp_scal. ring. }
  now apply G.
Qed.

Hypothesis (Hx : 0 < nx) (Hy : 0 < ny) (Hz : 0 < nz).
Hypothesis (Gx : g <= nx) (Gy : 1 < dims -> g <= ny) (Gz : 2 < dims -> g <= nz).
Variable u : cell -> V.
Hypothesis Hp : forall c, in_volume dims g nx ny nz c -> u c = u (image periodic1 dims g nx ny nz c).
Notation n := (nvec nx ny nz).

Lemma term_sum i : isum dims g n (fun c => comp i (diffusion_term bs eq m dims u c)) = 0%R.
Proof.
  rewrite (isum_ext dims g n _ (fun c => comp i (rhs dims (Flux2 dflux) no_reconstruction u c))).
  - apply rhs_periodic_sum; auto. split; [cbn; lia|exact Logic.I].
  - intros c _. now rewrite term_rhs.
Qed.

Lemma sumz_le lo hi f h : (forall i, lo <= i < hi -> (f i <= h i)%R) -> (sumz lo hi f <= sumz lo hi h)%R.
Proof.
  intros H. unfold sumz. assert (G : forall i, In i (zrange lo hi) -> (f i <= h i)%R).
  { intros i Hi. apply zrange_In in Hi. auto. }
  induction (zrange lo hi) as [|x l IH]; cbn; [lra|].
  specialize (IH (fun i Hi => G i (or_intror Hi))). specialize (G x (or_introl eq_refl)). lra.
Qed.
Lemma isum_le f h : (forall c, interior dims g nx ny nz c -> (f c <= h c)%R) -> (isum dims g n f <= isum dims g n h)%R.
Proof.
  intros H. unfold isum, sum3. apply sumz_le. intros z Iz. apply sumz_le. intros y Iy. apply sumz_le. intros x Ix.
  apply H. apply interior_iff; [lia|]. intros k Hk. dcase Hk; simpl; assumption.
Qed.

Notation v := (fun w => inner bs (dentropy eq w)).
Notation diss := (dissipation bs eq m).

(** Summation by parts: the inner product with the entropy variables is minus
    the sum over the faces of the entropy jump against the dissipation. *)
Lemma term_entropy :
  isum dims g n (fun c => inner bs (dentropy eq (u c)) (diffusion_term bs eq m dims u c)) =
  (- isum dims g n (fun c => fold_right Rplus 0 (map (fun d =>
       inner bs (dentropy eq (u (move d 1 c))) (diss d (u c) (u (move d 1 c)))
       - inner bs (dentropy eq (u c)) (diss d (u c) (u (move d 1 c)))) (zrange 0 dims))))%R.
Proof.
  set (J := fun d c => (inner bs (dentropy eq (u (move d 1 c))) (diss d (u c) (u (move d 1 c))))%R).
  rewrite (isum_ext dims g n _ (fun c => (fold_right Rplus 0 (map (fun d => - (J d (move d (-1) c) - J d c)) (zrange 0 dims)) +
     (-1) * fold_right Rplus 0 (map (fun d =>
       inner bs (dentropy eq (u (move d 1 c))) (diss d (u c) (u (move d 1 c)))
       - inner bs (dentropy eq (u c)) (diss d (u c) (u (move d 1 c)))) (zrange 0 dims)))%R)).
  - unfold isum. rewrite sum3_plus, sum3_scal.
    assert (Hl : forall d, In d (zrange 0 dims) -> 0 <= d < dims) by (intros d H; now apply zrange_In in H).
    assert (Z0 : sum3 (ilo dims g) (ihi dims g n) (fun c => fold_right Rplus 0%R (map (fun d => (- (J d (move d (-1) c) - J d c))%R) (zrange 0 dims))) = 0%R).
    { induction (zrange 0 dims) as [|d l IH]; cbn [map fold_right]; [apply sum3_zero|].
      rewrite sum3_plus, IH by (intros; apply Hl; now right).
      assert (Hd : 0 <= d < dims) by (apply Hl; now left).
      pose proof (telescope_periodic dims g nx ny nz ltac:(lia) ltac:(lia) Gx Gy Gz d (J d) Hd) as T. unfold isum in T.
      rewrite (sum3_ext _ _ _ (fun c => (-1 * (J d (move d (-1) c) - J d c))%R)) by (intros; ring).
      rewrite sum3_scal, T; [ring|]. intros c Hc. unfold J. rewrite move_move.
      rewrite (shift_periodic dims g nx ny nz ltac:(lia) ltac:(lia) Gx Gy Gz u Hp d c 1) by (auto; lia).
      rewrite <- (Z.add_0_r (n d)).
      rewrite (shift_periodic dims g nx ny nz ltac:(lia) ltac:(lia) Gx Gy Gz u Hp d c 0) by (auto; lia).
      now rewrite move_0. }
    rewrite Z0. ring.
  - intros c _. unfold diffusion_term. rewrite (proj1 (inner_linear (dentropy eq (u c)))) || idtac.
    assert (G : forall l a, inner bs (dentropy eq (u c)) (fold_left (fun a d =>
      vadd a (vadd (diss d (u c) (u (move d 1 c))) (vscal (-1) (diss d (u (move d (-1) c)) (u c))))) l a) =
      (inner bs (dentropy eq (u c)) a + (fold_right Rplus 0 (map (fun d => - (J d (move d (-1) c) - J d c)) l) +
     (-1) * fold_right Rplus 0 (map (fun d =>
       inner bs (dentropy eq (u (move d 1 c))) (diss d (u c) (u (move d 1 c)))
       - inner bs (dentropy eq (u c)) (diss d (u c) (u (move d 1 c)))) l)))%R).
    { induction l as [|d l IH]; intros a; cbn [fold_left map fold_right]; [ring|].
      rewrite IH, !inner_add, inner_scal. unfold J. rewrite move_move. change (-1 + 1) with 0. rewrite move_0. ring. }
    rewrite G, inner_zero. ring.
Qed.

Lemma term_dissipates : (isum dims g n (fun c => inner bs (dentropy eq (u c)) (diffusion_term bs eq m dims u c)) <= 0)%R.
Proof.
  rewrite term_entropy.
  assert (0 <= isum dims g n (fun c => fold_right Rplus 0 (map (fun d =>
       inner bs (dentropy eq (u (move d 1 c))) (diss d (u c) (u (move d 1 c)))
       - inner bs (dentropy eq (u c)) (diss d (u c) (u (move d 1 c)))) (zrange 0 dims))))%R; [|lra].
  apply Rle_trans with (isum dims g n (fun _ => 0%R)); [right; symmetry; apply sum3_zero|].
  apply isum_le. intros c _. induction (zrange 0 dims) as [|d l IH]; cbn [map fold_right]; [lra|].
  pose proof (dissipation_nonneg d (u c) (u (move d 1 c))). lra.
Qed.
End D.
