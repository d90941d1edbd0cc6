(** Lemmas about outcomes, loops and volumes. *)
From Coq Require Import ZArith List Bool Lia FinFun.
From Verif Require Import M_Base.
Import ListNotations.
Open Scope Z_scope.

#[global] Arguments Z.mul : simpl never.
#[global] Arguments Z.add : simpl never.
#[global] Arguments Z.sub : simpl never.
#[global] Arguments Z.opp : simpl never.

Lemma zrange_In lo hi i : In i (zrange lo hi) <-> lo <= i < hi.
Proof.
  unfold zrange. rewrite in_map_iff. split.
  - intros [k [<- Hk]]. apply in_seq in Hk. lia.
  - intros H. exists (Z.to_nat (i - lo)). split; [lia|].
    apply in_seq. lia.
Qed.

Lemma zrange_NoDup lo hi : NoDup (zrange lo hi).
Proof.
  unfold zrange. apply FinFun.Injective_map_NoDup.
  - intros a b H. lia.
  - apply seq_NoDup.
Qed.

Lemma zrange_empty lo hi : hi <= lo -> zrange lo hi = [].
Proof. intros. unfold zrange. replace (Z.to_nat (hi - lo)) with 0%nat by lia. reflexivity. Qed.

Lemma zrange_snoc lo hi : lo <= hi -> zrange lo (hi + 1) = zrange lo hi ++ [hi].
Proof.
  intros. unfold zrange.
  replace (Z.to_nat (hi + 1 - lo)) with (Z.to_nat (hi - lo) + 1)%nat by lia.
  rewrite seq_app, map_app. simpl. do 2 f_equal. lia.
Qed.

Lemma zrange_cons lo hi : lo < hi -> zrange lo hi = lo :: zrange (lo + 1) hi.
Proof.
  intros. unfold zrange.
  replace (Z.to_nat (hi - lo)) with (S (Z.to_nat (hi - (lo + 1)))) by lia.
  simpl. f_equal; [lia|]. rewrite <- seq_shift, map_map.
  apply map_ext. intros. lia.
Qed.

Lemma zrange_app lo mid hi :
  lo <= mid <= hi -> zrange lo hi = zrange lo mid ++ zrange mid hi.
Proof.
  intros. unfold zrange.
  replace (Z.to_nat (hi - lo)) with (Z.to_nat (mid - lo) + Z.to_nat (hi - mid))%nat by lia.
  rewrite seq_app, map_app. f_equal. simpl.
  replace (seq (Z.to_nat (mid - lo)) (Z.to_nat (hi - mid)))
    with (map (fun k => Z.to_nat (mid - lo) + k)%nat (seq 0 (Z.to_nat (hi - mid)))).
  - rewrite map_map. apply map_ext. intros. lia.
  - clear. induction (Z.to_nat (hi - mid)) as [|n IH] in |- *; [reflexivity|].
    rewrite !seq_S, map_app, IH. simpl. reflexivity.
Qed.

Lemma zrange_length lo hi : length (zrange lo hi) = Z.to_nat (hi - lo).
Proof. unfold zrange. now rewrite map_length, seq_length. Qed.

Lemma fold_res_app {I S} (body : I -> S -> res S) l1 l2 s :
  fold_res body (l1 ++ l2) s = (s' <- fold_res body l1 s;; fold_res body l2 s').
Proof.
  revert s. induction l1 as [|i l1 IH]; intros; [reflexivity|].
  simpl. destruct (body i s); simpl; auto.
Qed.

Lemma fold_res_map {I J S} (body : J -> S -> res S) (h : I -> J) l s :
  fold_res body (map h l) s = fold_res (fun i => body (h i)) l s.
Proof.
  revert s. induction l as [|i l IH]; intros; [reflexivity|].
  simpl. destruct (body (h i) s); simpl; auto.
Qed.

Lemma fold_res_flat_map {I J S} (body : J -> S -> res S) (g : I -> list J) l s :
  fold_res body (flat_map g l) s = fold_res (fun i => fold_res body (g i)) l s.
Proof.
  revert s. induction l as [|i l IH]; intros; [reflexivity|].
  simpl. rewrite fold_res_app. destruct (fold_res body (g i) s); simpl; auto.
Qed.

Lemma fold_res_ext {I S} (f g : I -> S -> res S) l s :
  (forall i s, In i l -> f i s = g i s) -> fold_res f l s = fold_res g l s.
Proof.
  revert s. induction l as [|i l IH]; intros s H; [reflexivity|].
  simpl. rewrite H by (left; reflexivity). destruct (g i s); simpl; auto.
  apply IH. intros. apply H. now right.
Qed.

(** Invariant rule for a loop over a list. *)
Lemma fold_res_inv {I S} (body : I -> S -> res S) (P : list I -> S -> Prop) l s :
  P [] s ->
  (forall pre i post s, l = pre ++ i :: post -> P pre s ->
     exists s', body i s = Ok s' /\ P (pre ++ [i]) s') ->
  exists s', fold_res body l s = Ok s' /\ P l s'.
Proof.
  intros H0 Hs.
  enough (G : forall post pre s, l = pre ++ post -> P pre s ->
     exists s', fold_res body post s = Ok s' /\ P l s').
  { apply (G l []); auto. }
  induction post as [|i post IH]; intros pre s1 E HP.
  - exists s1. simpl. rewrite app_nil_r in E. subst. auto.
  - destruct (Hs pre i post s1 E HP) as [s2 [E2 P2]].
    simpl. rewrite E2. simpl. apply (IH (pre ++ [i])); auto.
    now rewrite <- app_assoc.
Qed.

(** Invariant rule for a counted loop. *)
Lemma for_inv {S} (P : Z -> S -> Prop) lo hi (body : Z -> S -> res S) s :
  lo <= hi -> P lo s ->
  (forall i s, lo <= i < hi -> P i s -> exists s', body i s = Ok s' /\ P (i + 1) s') ->
  exists s', for_ lo hi body s = Ok s' /\ P hi s'.
Proof.
  intros Hle H0 Hs. unfold for_.
  destruct (fold_res_inv body (fun pre s => P (lo + Z.of_nat (length pre)) s)
              (zrange lo hi) s) as [s' [E HP]].
  - simpl. now replace (lo + 0) with lo by lia.
  - intros pre i post s1 E HP.
    assert (Hi : i = lo + Z.of_nat (length pre)).
    { assert (L : (length pre < Z.to_nat (hi - lo))%nat).
      { apply (f_equal (@length Z)) in E. rewrite zrange_length, app_length in E.
        simpl in E. lia. }
      assert (N : nth (length pre) (zrange lo hi) (lo + Z.of_nat 0) = i).
      { rewrite E. rewrite app_nth2, Nat.sub_diag by lia. reflexivity. }
      unfold zrange in N.
      rewrite (map_nth (fun k => lo + Z.of_nat k)), seq_nth in N by lia. lia. }
    assert (lo <= i < hi).
    { apply zrange_In. rewrite E. apply in_or_app. right. left. reflexivity. }
    subst i. destruct (Hs _ _ H HP) as [s2 [E2 P2]].
    exists s2. split; auto. rewrite app_length. simpl.
    replace (lo + Z.of_nat (length pre + 1)) with (lo + Z.of_nat (length pre) + 1) by lia.
    exact P2.
  - exists s'. split; auto. rewrite zrange_length in HP.
    replace hi with (lo + Z.of_nat (Z.to_nat (hi - lo))) by lia. exact HP.
Qed.

(** The cells visited by [for3], in order. *)
Definition box (zlo zhi ylo yhi xlo xhi : Z) : list cell :=
  flat_map (fun z => flat_map (fun y => map (fun x => (x, y, z)) (zrange xlo xhi))
                              (zrange ylo yhi)) (zrange zlo zhi).

Lemma box_In zlo zhi ylo yhi xlo xhi x y z :
  In (x, y, z) (box zlo zhi ylo yhi xlo xhi) <->
  xlo <= x < xhi /\ ylo <= y < yhi /\ zlo <= z < zhi.
Proof.
  unfold box. rewrite in_flat_map. split.
  - intros [z' [Hz H]]. apply in_flat_map in H. destruct H as [y' [Hy H]].
    apply in_map_iff in H. destruct H as [x' [E Hx]]. injection E as -> -> ->.
    rewrite zrange_In in *. lia.
  - intros (Hx & Hy & Hz). exists z. split; [now apply zrange_In|].
    apply in_flat_map. exists y. split; [now apply zrange_In|].
    apply in_map_iff. exists x. split; auto. now apply zrange_In.
Qed.

Lemma NoDup_flat_map {A B} (f : A -> list B) l :
  NoDup l -> (forall a, In a l -> NoDup (f a)) ->
  (forall a b x, In a l -> In b l -> In x (f a) -> In x (f b) -> a = b) ->
  NoDup (flat_map f l).
Proof.
  induction l as [|a l IH]; intros Nl Nf Nd; simpl; [constructor|].
  inversion Nl as [|? ? Na Nl']; subst.
  assert (forall (l1 l2 : list B), NoDup l1 -> NoDup l2 ->
            (forall x, In x l1 -> ~ In x l2) -> NoDup (l1 ++ l2)) as App.
  { clear. induction l1 as [|x l1 IH]; intros l2 N1 N2 D; simpl; auto.
    inversion N1; subst. constructor.
    - rewrite in_app_iff. intros [H|H]; [contradiction|]. apply (D x); simpl; auto.
    - apply IH; auto. intros y Hy. apply D. now right. }
  apply App.
  - apply Nf. now left.
  - apply IH; auto.
    + intros. apply Nf. now right.
    + intros b c x Hb Hc. apply Nd; now right.
  - intros x Hx Hx'. apply in_flat_map in Hx'. destruct Hx' as [b [Hb Hxb]].
    apply Na. rewrite (Nd a b x); auto; [now left|now right].
Qed.

Lemma box_NoDup zlo zhi ylo yhi xlo xhi : NoDup (box zlo zhi ylo yhi xlo xhi).
Proof.
  unfold box. apply NoDup_flat_map.
  - apply zrange_NoDup.
  - intros z _. apply NoDup_flat_map.
    + apply zrange_NoDup.
    + intros y _. apply FinFun.Injective_map_NoDup; [|apply zrange_NoDup].
      intros a b H. now injection H.
    + intros y y' c _ _ H H'. apply in_map_iff in H, H'.
      destruct H as [? [<- _]], H' as [? [E _]]. now injection E.
  - intros z z' c _ _ H H'. apply in_flat_map in H, H'.
    destruct H as [? [_ H]], H' as [? [_ H']].
    apply in_map_iff in H, H'. destruct H as [? [<- _]], H' as [? [E _]]. now injection E.
Qed.

Lemma for3_box {S} zlo zhi ylo yhi xlo xhi (body : Z -> Z -> Z -> S -> res S) s :
  for3 zlo zhi ylo yhi xlo xhi body s =
  fold_res (fun c => let '(x, y, z) := c in body x y z)
           (box zlo zhi ylo yhi xlo xhi) s.
Proof.
  unfold for3, for_, box. rewrite fold_res_flat_map.
  apply fold_res_ext. intros z s1 _. rewrite fold_res_flat_map.
  apply fold_res_ext. intros y s2 _. rewrite fold_res_map. reflexivity.
Qed.

(** ** Volumes *)

Definition inr {A} (v : vol A) (c : cell) : Prop :=
  let '(x, y, z) := c in 0 <= x < vnx v /\ 0 <= y < vny v /\ 0 <= z < vnz v.

Definition same_dims {A B} (v : vol A) (w : vol B) : Prop :=
  vnx v = vnx w /\ vny v = vny w /\ vnz v = vnz w.

Lemma same_dims_refl {A} (v : vol A) : same_dims v v.
Proof. repeat split. Qed.

Lemma same_dims_sym {A B} (v : vol A) (w : vol B) : same_dims v w -> same_dims w v.
Proof. unfold same_dims. intuition. Qed.

Lemma same_dims_trans {A B C} (u : vol A) (v : vol B) (w : vol C) :
  same_dims u v -> same_dims v w -> same_dims u w.
Proof. unfold same_dims. intuition congruence. Qed.

Lemma inr_same {A B} (v : vol A) (w : vol B) c : same_dims v w -> inr v c -> inr w c.
Proof. destruct c as [[x y] z]. unfold same_dims, inr. intuition congruence. Qed.

Lemma inb_inr {A} (v : vol A) x y z : inb v x y z = true <-> inr v (x, y, z).
Proof.
  unfold inb, inr. rewrite !andb_true_iff, !Z.leb_le, !Z.ltb_lt. lia.
Qed.

Lemma index_inj nx ny x y z x' y' z' :
  0 <= x < nx -> 0 <= x' < nx -> 0 <= y < ny -> 0 <= y' < ny ->
  index nx ny x y z = index nx ny x' y' z' -> x = x' /\ y = y' /\ z = z'.
Proof.
  unfold index. intros.
  assert (x + nx * (y + ny * z) = x' + nx * (y' + ny * z')) by lia.
  assert (x = x').
  { rewrite <- (Z.mod_small x nx), <- (Z.mod_small x' nx) by lia.
    rewrite <- (Z.mod_add x (y + ny * z) nx), <- (Z.mod_add x' (y' + ny * z') nx) by lia.
    f_equal. lia. }
  subst x'.
  assert (y + ny * z = y' + ny * z') by nia.
  assert (y = y').
  { rewrite <- (Z.mod_small y ny), <- (Z.mod_small y' ny) by lia.
    rewrite <- (Z.mod_add y z ny), <- (Z.mod_add y' z' ny) by lia.
    f_equal. lia. }
  subst y'. split; [reflexivity|]. split; [reflexivity|]. nia.
Qed.

Lemma vload_ok {A} (v : vol A) x y z :
  inr v (x, y, z) -> vload v x y z = Ok (vget v (x, y, z)).
Proof. intros H. unfold vload. apply inb_inr in H. now rewrite H. Qed.

Lemma vload_inv {A} (v : vol A) x y z a :
  vload v x y z = Ok a -> inr v (x, y, z) /\ a = vget v (x, y, z).
Proof.
  unfold vload. destruct (inb v x y z) eqn:E; [|discriminate].
  intros H. injection H as <-. split; [now apply inb_inr|reflexivity].
Qed.

Lemma vstore_ok {A} (v : vol A) x y z a :
  inr v (x, y, z) ->
  exists v', vstore v x y z a = Ok v' /\ same_dims v v' /\
    vget v' (x, y, z) = a /\
    forall c, inr v c -> c <> (x, y, z) -> vget v' c = vget v c.
Proof.
  intros H. unfold vstore. pose proof H as H'. apply inb_inr in H'. rewrite H'.
  eexists. split; [reflexivity|]. split; [repeat split|]. simpl. split.
  - now rewrite Z.eqb_refl.
  - intros [[x' y'] z'] Hc Hne. simpl.
    destruct (_ =? _) eqn:E; [|reflexivity].
    apply Z.eqb_eq in E. unfold inr in *.
    destruct (index_inj (vnx v) (vny v) x' y' z' x y z) as (-> & -> & ->); try lia.
    congruence.
Qed.

Lemma vstore_inv {A} (v v' : vol A) x y z a :
  vstore v x y z a = Ok v' ->
  inr v (x, y, z) /\ same_dims v v' /\
    vget v' (x, y, z) = a /\
    forall c, inr v c -> c <> (x, y, z) -> vget v' c = vget v c.
Proof.
  intros H. assert (inr v (x, y, z)) as Hi.
  { unfold vstore in H. destruct (inb v x y z) eqn:E; [|discriminate]. now apply inb_inr. }
  split; auto. destruct (vstore_ok v x y z a Hi) as [w [E R]].
  rewrite E in H. injection H as <-. exact R.
Qed.

Definition vstorec {A} (v : vol A) (c : cell) (a : A) : res (vol A) :=
  let '(x, y, z) := c in vstore v x y z a.
Definition vloadc {A} (v : vol A) (c : cell) : res A :=
  let '(x, y, z) := c in vload v x y z.

Lemma cell_eq_dec (c d : cell) : {c = d} + {c <> d}.
Proof. repeat decide equality. Qed.

(** A loop whose [i]-th iteration stores [a i] at [tgt i] and folds [b i] into
    an accumulator.  The value stored may be read from cells stored earlier in
    the same loop. *)
Lemma seq_write {I A B W} (tgt : I -> cell) (val : I -> vol A -> res (A * B))
      (upd : W -> B -> W) (a : I -> A) (b : I -> B) l (v : vol A) (w : W) :
  NoDup (map tgt l) ->
  (forall i, In i l -> inr v (tgt i)) ->
  (forall pre i post, l = pre ++ i :: post -> forall v',
      same_dims v v' ->
      (forall j, In j pre -> vget v' (tgt j) = a j) ->
      (forall c, inr v c -> ~ In c (map tgt pre) -> vget v' c = vget v c) ->
      val i v' = Ok (a i, b i)) ->
  exists v',
    fold_res (fun i (s : vol A * W) =>
                let '(v, w) := s in
                r <- val i v;;
                v' <- vstorec v (tgt i) (fst r);;
                Ok (v', upd w (snd r))) l (v, w)
    = Ok (v', fold_left (fun w i => upd w (b i)) l w) /\
    same_dims v v' /\
    (forall i, In i l -> vget v' (tgt i) = a i) /\
    (forall c, inr v c -> ~ In c (map tgt l) -> vget v' c = vget v c).
Proof.
  intros Nd Hin Hval.
  match goal with |- exists v', fold_res ?F _ _ = _ /\ _ =>
  destruct (fold_res_inv F
    (fun pre s => same_dims v (fst s) /\
       snd s = fold_left (fun w i => upd w (b i)) pre w /\
       (forall i, In i pre -> vget (fst s) (tgt i) = a i) /\
       (forall c, inr v c -> ~ In c (map tgt pre) -> vget (fst s) c = vget v c))
    l (v, w)) as [s' [E (HD & HW & HA & HU)]] end.
  - simpl. repeat split; auto. intros ? [].
  - intros pre i post [v1 w1] El (HD & HW & HA & HU). simpl in *.
    rewrite (Hval pre i post El v1 HD HA HU). simpl.
    destruct (tgt i) as [[x y] z] eqn:Et.
    assert (Hi : inr v1 (x, y, z)).
    { apply (inr_same v); auto. rewrite <- Et. apply Hin. rewrite El.
      apply in_or_app. right. now left. }
    destruct (vstore_ok v1 x y z (a i) Hi) as [v2 [E2 (D2 & G2 & U2)]].
    unfold vstorec. rewrite E2. simpl. eexists. split; [reflexivity|].
    simpl. split; [eapply same_dims_trans; eauto|]. split.
    { rewrite fold_left_app. simpl. now rewrite <- HW. }
    assert (Nt : forall j, In j pre -> tgt j <> (x, y, z)).
    { intros j Hj Ej. rewrite El, map_app in Nd. simpl in Nd.
      apply NoDup_remove_2 in Nd. apply Nd. apply in_or_app. left.
      rewrite Et, <- Ej. now apply in_map. }
    split.
    + intros j Hj. apply in_app_or in Hj. destruct Hj as [Hj|[<-|[]]].
      * rewrite U2; auto. apply (inr_same v); auto. apply Hin. rewrite El.
        apply in_or_app. now left.
      * now rewrite Et.
    + intros c Hc Hn. rewrite map_app in Hn. rewrite U2.
      * apply HU; auto. intros ?. apply Hn. apply in_or_app. now left.
      * now apply (inr_same v).
      * intros ->. apply Hn. apply in_or_app. right. left. exact Et.
  - destruct s' as [v' w']. simpl in *. exists v'. rewrite E, HW. auto.
Qed.

(** The same without accumulator. *)
Lemma seq_write1 {I A} (tgt : I -> cell) (val : I -> vol A -> res A)
      (a : I -> A) l (v : vol A) :
  NoDup (map tgt l) ->
  (forall i, In i l -> inr v (tgt i)) ->
  (forall pre i post, l = pre ++ i :: post -> forall v',
      same_dims v v' ->
      (forall j, In j pre -> vget v' (tgt j) = a j) ->
      (forall c, inr v c -> ~ In c (map tgt pre) -> vget v' c = vget v c) ->
      val i v' = Ok (a i)) ->
  exists v',
    fold_res (fun i v => r <- val i v;; vstorec v (tgt i) r) l v = Ok v' /\
    same_dims v v' /\
    (forall i, In i l -> vget v' (tgt i) = a i) /\
    (forall c, inr v c -> ~ In c (map tgt l) -> vget v' c = vget v c).
Proof.
  intros Nd Hin Hval.
  destruct (seq_write tgt (fun i v => r <- val i v;; Ok (r, tt))
              (fun w _ => w) a (fun _ => tt) l v tt Nd Hin) as [v' [E R]].
  - intros. erewrite Hval; eauto.
  - exists v'. split; [|exact R].
    assert (G : forall l v w,
      fold_res (fun i (s : vol A * unit) =>
        let '(v0, w0) := s in
        r <- (r <- val i v0;; Ok (r, tt));;
        v'0 <- vstorec v0 (tgt i) (fst r);; Ok (v'0, w0)) l (v, w)
      = (v' <- fold_res (fun i v => r <- val i v;; vstorec v (tgt i) r) l v;; Ok (v', w))).
    { clear. induction l as [|i l IH]; intros; simpl; auto.
      destruct (val i v); simpl; auto. destruct (vstorec v (tgt i) a); simpl; auto. }
    rewrite G in E. destruct (fold_res _ l v); simpl in E; congruence.
Qed.
