(** Proofs about boundary conditions (C02, C03). *)
From Coq Require Import ZArith List Bool Lia FinFun.
From Verif Require Import M_Base M_Boundary S_Boundary L_Base.
Import ListNotations.
Open Scope Z_scope.

Lemma fold_res_prod {I J S} (body : I -> J -> S -> res S) l ks s :
  fold_res (fun i => fold_res (body i) ks) l s =
  fold_res (fun p => body (fst p) (snd p)) (list_prod l ks) s.
Proof.
  revert s. induction l as [|i l IH]; intros; [reflexivity|].
  simpl. rewrite fold_res_app, fold_res_map. simpl.
  destruct (fold_res (body i) ks s); simpl; auto.
Qed.

Lemma list_prod_NoDup {I J} (l : list I) (ks : list J) :
  NoDup l -> NoDup ks -> NoDup (list_prod l ks).
Proof.
  intros Hl Hk. induction l as [|i l IH]; simpl; [constructor|].
  inversion Hl; subst.
  assert (App : forall l1 l2 : list (I * J), NoDup l1 -> NoDup l2 ->
            (forall x, In x l1 -> ~ In x l2) -> NoDup (l1 ++ l2)).
  { clear. induction l1 as [|x l1 IH]; intros l2 N1 N2 D; simpl; auto.
    inversion N1; subst. constructor.
    - rewrite in_app_iff. intros [H|H]; [contradiction|]. apply (D x); simpl; auto.
    - apply IH; auto. intros y Hy. apply D. now right. }
  apply App; auto.
  - apply Injective_map_NoDup; auto. intros a b E. now injection E.
  - intros [a b] H1' H2'. apply in_map_iff in H1'. destruct H1' as [? [E _]].
    injection E as <- <-. apply in_prod_iff in H2'. tauto.
Qed.

(** Coordinate [d] of a cell, and its replacement. *)
Definition getd (d : Z) (c : cell) : Z :=
  let '(x, y, z) := c in if d =? 0 then x else if d =? 1 then y else z.
Definition setd (d t : Z) (c : cell) : cell :=
  let '(x, y, z) := c in
  if d =? 0 then (t, y, z) else if d =? 1 then (x, t, z) else (x, y, t).
Definition extd {A} (d : Z) (v : vol A) : Z :=
  if d =? 0 then vnx v else if d =? 1 then vny v else vnz v.

(** What a boundary function has to do for the generic sweep lemma. *)
Definition bc_ok {A} (bc : bc_fun A) (im : Z -> Z -> Z -> Z) : Prop :=
  forall (v : vol A) x y z k g (top : bool) d n,
    (d = 0 \/ d = 1 \/ d = 2) ->
    let s := if top then -1 else 1 in
    0 <= g <= n -> 1 <= k <= g -> extd d v = n + 2 * g ->
    getd d (x, y, z) = (if top then n + g - 1 else g) ->
    bc v x y z k g top (d =? 0) (d =? 1) (d =? 2) =
    (let c' := setd d (getd d (x, y, z) - s * k) (x, y, z) in
     a <- vloadc v (setd d (im g n (getd d c')) c');; vstorec v c' a).


Lemma bind_eq {A B} (e1 e2 : res A) (f1 f2 : A -> res B) :
  e1 = e2 -> (forall a, f1 a = f2 a) -> bind e1 f1 = bind e2 f2.
Proof. intros -> H. destruct e2; simpl; auto. Qed.

Ltac coords := repeat (match goal with
  | |- @eq Z _ _ => lia
  | |- vload _ _ _ _ = vload _ _ _ _ => f_equal
  | |- vstore _ _ _ _ _ = vstore _ _ _ _ _ => f_equal
  end).

Lemma neumann_ok {A} : bc_ok (@neumann_apply A) mirror1.
Proof.
  unfold bc_ok. intros v x y z k g top d n Hd Hg Hk He Hx.
  unfold neumann_apply, mirror1.
  destruct Hd as [->|[->| ->]]; simpl in *; subst;
    apply bind_eq; intros; destruct top; cbn [b2z vloadc vstorec];
    repeat match goal with |- context [?a <? ?b] => destruct (Z.ltb_spec a b) end;
    repeat match goal with |- context [?a <=? ?b] => destruct (Z.leb_spec a b) end; try lia;
    coords.
Qed.

Lemma periodic1_low g n t : 0 <= g <= n -> 0 <= t < g -> periodic1 g n t = t + n.
Proof.
  intros. unfold periodic1.
  replace (t - g) with ((t - g + n) + (-1) * n) by ring.
  rewrite Z.mod_add by lia. rewrite Z.mod_small; lia.
Qed.
Lemma periodic1_high g n t : 0 <= g <= n -> n + g <= t < n + 2 * g -> periodic1 g n t = t - n.
Proof.
  intros. unfold periodic1.
  replace (t - g) with ((t - g - n) + 1 * n) by ring.
  rewrite Z.mod_add by lia. rewrite Z.mod_small; lia.
Qed.
Lemma periodic1_mid g n t : g <= t < g + n -> periodic1 g n t = t.
Proof. intros. unfold periodic1. rewrite Z.mod_small; lia. Qed.
Lemma periodic1_range g n t : 0 < n -> g <= periodic1 g n t < g + n.
Proof. intros. unfold periodic1. pose proof (Z.mod_pos_bound (t - g) n). lia. Qed.
Lemma mirror1_range g n t : 0 <= g <= n -> 0 <= t < n + 2 * g -> g <= mirror1 g n t < g + n.
Proof.
  intros. unfold mirror1.
  destruct (Z.ltb_spec t g); destruct (Z.leb_spec (g + n) t); lia.
Qed.
Lemma mirror1_mid g n t : g <= t < g + n -> mirror1 g n t = t.
Proof.
  intros. unfold mirror1.
  destruct (Z.ltb_spec t g); destruct (Z.leb_spec (g + n) t); lia.
Qed.

Lemma periodic_ok {A} : bc_ok (@periodic_apply A) periodic1.
Proof.
  unfold bc_ok. intros v x y z k g top d n Hd Hg Hk He Hx.
  unfold periodic_apply. unfold extd in He.
  destruct Hd as [->|[->| ->]]; simpl in *; subst;
    apply bind_eq; intros; destruct top; cbn [b2z vloadc vstorec];
    rewrite ?He; try (rewrite periodic1_low by lia); try (rewrite periodic1_high by lia);
    coords.
Qed.

Definition onside (g n i t : Z) : bool :=
  if i =? 0 then t <? g else n + g <=? t.

Lemma bc_sweep_spec {A} (bc : bc_fun A) im (v : vol A) g n d i :
  bc_ok bc im ->
  (d = 0 \/ d = 1 \/ d = 2) -> (i = 0 \/ i = 1) ->
  0 <= g <= n -> extd d v = n + 2 * g ->
  (forall t, 0 <= t < n + 2 * g -> g <= im g n t < g + n) ->
  exists v', bc_sweep bc g d i v = Ok v' /\ same_dims v v' /\
    forall c, inr v c -> vget v' c =
      vget v (if onside g n i (getd d c) then setd d (im g n (getd d c)) c else c).
Proof.
  intros Hbc Hd Hi Hg He Him.
  set (st := if i =? 0 then g else n + g - 1).
  set (sg := if i =? 1 then -1 else 1).
  pose (tgt := fun p : cell * Z => setd d (st - sg * snd p) (fst p)).
  pose (src := fun c' : cell => setd d (im g n (getd d c')) c').
  pose (bx := box
     (if d =? 2 then st else 0) (if d =? 2 then st + 1 else vnz v)
     (if d =? 1 then st else 0) (if d =? 1 then st + 1 else vny v)
     (if d =? 0 then st else 0) (if d =? 0 then st + 1 else vnx v)).
  assert (Hbx : forall c, In c bx -> getd d c = st /\ (1 <= g -> inr v c)).
  { intros [[x y] z] H. unfold bx in H. apply box_In in H. unfold inr, extd in *. subst st.
    destruct Hd as [->|[->| ->]]; destruct Hi as [->| ->]; simpl in *; lia. }
  assert (Hfold : bc_sweep bc g d i v =
    fold_res (fun p v => r <- vloadc v (src (tgt p));; vstorec v (tgt p) r)
             (list_prod bx (zrange 1 (g + 1))) v).
  { unfold bc_sweep. rewrite for3_box.
    transitivity (fold_res (fun c => fold_res (fun k v => bc v (fst (fst c)) (snd (fst c)) (snd c) k g (i =? 1) (d =? 0) (d =? 1) (d =? 2)) (zrange 1 (g+1))) bx v).
    - replace (box _ _ _ _ _ _) with bx.
      + apply fold_res_ext. intros [[x y] z] s _. reflexivity.
      + unfold bx, extd, st in *. destruct Hd as [->|[->| ->]]; destruct Hi as [->| ->]; simpl in *;
         rewrite ?He; try reflexivity; f_equal; lia.
    - rewrite fold_res_prod.
      (* equality only on volumes with the extents of v: use the invariant *)
      set (l := list_prod bx (zrange 1 (g + 1))).
      assert (Hl : forall p, In p l -> In (fst p) bx /\ 1 <= snd p <= g).
      { intros [c k] H. apply in_prod_iff in H. rewrite zrange_In in H. simpl. intuition lia. }
      assert (G : forall l s, (forall p, In p l -> In (fst p) bx /\ 1 <= snd p <= g) ->
                  same_dims v s ->
        fold_res (fun p => (fun c k v0 => bc v0 (fst (fst c)) (snd (fst c)) (snd c) k g (i =? 1) (d =? 0) (d =? 1) (d =? 2)) (fst p) (snd p)) l s =
        fold_res (fun p v0 => r <- vloadc v0 (src (tgt p));; vstorec v0 (tgt p) r) l s).
      { clear l Hl. induction l as [|[[[x y] z] k] l IH]; intros s Hl Hs; [reflexivity|].
        destruct (Hl ((x,y,z),k)) as [Hc Hk]; [now left|]. simpl in Hc, Hk.
        destruct (Hbx _ Hc) as [Hst _].
        cbn [fold_res fst snd].
        assert (E : bc s x y z k g (i =? 1) (d =? 0) (d =? 1) (d =? 2) =
                    (r <- vloadc s (src (tgt ((x,y,z),k)));; vstorec s (tgt ((x,y,z),k)) r)).
        { rewrite (Hbc s x y z k g (i =? 1) d n Hd); try lia.
          - cbv zeta. rewrite Hst. reflexivity.
          - rewrite <- He. unfold extd. destruct Hs as (-> & -> & ->). reflexivity.
          - rewrite Hst. unfold st. destruct Hi as [->| ->]; reflexivity. }
        rewrite E.
        match goal with |- bind ?e _ = bind ?e' _ => change e' with e end.
        clear E. destruct (vloadc s (src (tgt (x,y,z,k)))) as [a| |] eqn:E1; simpl; auto.
        destruct (vstorec s (tgt (x,y,z,k)) a) eqn:E2; simpl; auto.
        apply IH.
        - intros. apply Hl. now right.
        - eapply same_dims_trans; [exact Hs|].
          unfold vstorec in E2. destruct (tgt (x,y,z,k)) as [[x' y'] z'].
          unfold vstore in E2. destruct (inb s x' y' z'); [|discriminate].
          injection E2 as <-. repeat split. }
      apply (G l v Hl (same_dims_refl v)). }
  set (l := list_prod bx (zrange 1 (g + 1))) in *.
  assert (Hl : forall p, In p l -> getd d (fst p) = st /\ inr v (fst p) /\ 1 <= snd p <= g).
  { intros [c k] H. apply in_prod_iff in H. rewrite zrange_In in H. simpl.
    destruct H as [Hc Hk]. destruct (Hbx c Hc) as [Q1 Q2].
    split; [exact Q1|]. split; [apply Q2; lia|lia]. }
  assert (Hinr : forall p, In p l -> inr v (tgt p)).
  { intros [[[x y] z] k] H. destruct (Hl _ H) as (H1 & H2 & H3). simpl in *.
    unfold tgt, inr, extd, st, sg in *. destruct Hd as [->|[->| ->]]; destruct Hi as [->| ->]; simpl in *; lia. }
  assert (Hside : forall p, In p l -> onside g n i (getd d (tgt p)) = true).
  { intros [[[x y] z] k] H. destruct (Hl _ H) as (H1 & H2 & H3). simpl in *.
    unfold tgt, onside, st, sg in *. destruct Hd as [->|[->| ->]]; destruct Hi as [->| ->]; simpl in *; lia. }
  assert (Hsrc : forall c, inr v c -> inr v (src c) /\ g <= getd d (src c) < g + n).
  { intros [[x y] z] H. unfold src.
    assert (0 <= getd d (x,y,z) < n + 2 * g).
    { rewrite <- He. unfold inr, getd, extd in *. destruct Hd as [->|[->| ->]]; simpl in *; lia. }
    specialize (Him _ H0).
    unfold inr, extd in *. destruct Hd as [->|[->| ->]]; simpl in *; lia. }
  destruct (seq_write1 tgt (fun p v => vloadc v (src (tgt p)))
              (fun p => vget v (src (tgt p))) l v) as (v' & E & D & W & K).
  - (* targets are distinct *)
    assert (Inj : forall p q, In p l -> In q l -> tgt p = tgt q -> p = q).
    { intros [[[x y] z] k] [[[x' y'] z'] k'] Hp Hq E.
      destruct (Hl _ Hp) as (P1 & P2 & P3). destruct (Hl _ Hq) as (Q1 & Q2 & Q3).
      unfold tgt, sg in E. simpl in *.
      destruct Hd as [->|[->| ->]]; destruct Hi as [->| ->]; simpl in *; injection E; intros; subst;
      repeat f_equal; lia. }
    assert (ND : NoDup l) by (apply list_prod_NoDup; [apply box_NoDup|apply zrange_NoDup]).
    clear -Inj ND. induction l as [|p l IH]; simpl; [constructor|].
    inversion ND; subst. constructor.
    + rewrite in_map_iff. intros [q [Eq Hq]]. apply H1.
      rewrite (Inj p q); simpl; auto.
    + apply IH; auto. intros; apply Inj; simpl; auto.
  - exact Hinr.
  - intros pre p post El v1 S1 _ K1.
    assert (Hp : In p l) by (rewrite El; apply in_or_app; simpl; auto).
    destruct (Hsrc _ (Hinr p Hp)) as [I1 I2].
    unfold vloadc. destruct (src (tgt p)) as [[x y] z] eqn:Es. try rewrite Es in I1, I2.
    rewrite vload_ok by (eapply inr_same; eauto).
    f_equal. apply K1; auto.
    rewrite in_map_iff. intros [q [Eq Hq]].
    assert (Hql : In q l) by (rewrite El; apply in_or_app; auto).
    pose proof (Hside q Hql) as Hs. rewrite Eq in Hs. unfold onside in Hs.
    clear -Hs I2 Hi. revert Hs I2. generalize (getd d (x, y, z)). intros t Hs I2.
    destruct Hi as [->| ->]; simpl in Hs; lia.
  - exists v'. rewrite Hfold. split; [exact E|]. split; [exact D|].
    intros c Hc. destruct (onside g n i (getd d c)) eqn:Eo.
    + (* c is a target *)
      pose (k := sg * (st - getd d c)).
      assert (Hin : In (setd d st c, k) l /\ tgt (setd d st c, k) = c).
      { destruct c as [[x y] z].
        assert (Hr : 0 <= getd d (x,y,z) < n + 2 * g).
        { rewrite <- He. unfold inr, getd, extd in *. destruct Hd as [->|[->| ->]]; simpl in *; lia. }
        unfold onside in Eo. split.
        - apply in_prod_iff. rewrite zrange_In. split.
          + unfold bx, setd, inr in *. destruct Hd as [->|[->| ->]]; simpl in *; apply box_In; lia.
          + unfold k, sg, st. destruct Hi as [->| ->]; simpl in *; lia.
        - unfold tgt, k, sg. destruct Hd as [->|[->| ->]]; destruct Hi as [->| ->]; simpl in *; repeat f_equal; lia. }
      destruct Hin as [Hin Et]. specialize (W _ Hin). rewrite Et in W. exact W.
    + apply K; auto. rewrite in_map_iff. intros [p [Ep Hp]].
      pose proof (Hside p Hp). rewrite Ep in H. congruence.
Qed.

Lemma bc_direction {A} (bc : bc_fun A) im (mpi : Z -> bool) (v : vol A) g n d :
  bc_ok bc im ->
  (d = 0 \/ d = 1 \/ d = 2) ->
  0 <= g <= n -> extd d v = n + 2 * g ->
  (forall t, 0 <= t < n + 2 * g -> g <= im g n t < g + n) ->
  (forall t, g <= t < g + n -> im g n t = t) ->
  exists v', for_ 0 2 (fun i v => if mpi (2 * d + i) then Ok v else bc_sweep bc g d i v) v
             = Ok v' /\ same_dims v v' /\
    forall c, inr v c -> vget v' c =
      vget v (setd d (masked (mpi (2 * d)) (mpi (2 * d + 1)) im g n (getd d c)) c).
Proof.
  intros Hbc Hd Hg He Him Hid.
  unfold for_. change (zrange 0 2) with [0; 1]. cbn [fold_res].
  replace (2 * d + 0) with (2 * d) by ring.
  assert (L : exists v1, (if mpi (2 * d) then Ok v else bc_sweep bc g d 0 v) = Ok v1 /\
     same_dims v v1 /\ forall c, inr v c -> vget v1 c =
       vget v (if negb (mpi (2 * d)) && (getd d c <? g) then setd d (im g n (getd d c)) c else c)).
  { destruct (mpi (2 * d)).
    - exists v. split; [reflexivity|]. split; [apply same_dims_refl|reflexivity].
    - destruct (bc_sweep_spec bc im v g n d 0) as (v1 & E & D & W); auto.
      exists v1. split; [exact E|]. split; [exact D|]. exact W. }
  destruct L as (v1 & E1 & D1 & W1). rewrite E1. cbn [bind].
  assert (L : exists v2, (if mpi (2 * d + 1) then Ok v1 else bc_sweep bc g d 1 v1) = Ok v2 /\
     same_dims v1 v2 /\ forall c, inr v1 c -> vget v2 c =
       vget v1 (if negb (mpi (2 * d + 1)) && (n + g <=? getd d c) then setd d (im g n (getd d c)) c else c)).
  { destruct (mpi (2 * d + 1)).
    - exists v1. split; [reflexivity|]. split; [apply same_dims_refl|reflexivity].
    - destruct (bc_sweep_spec bc im v1 g n d 1) as (v2 & E & D & W); auto.
      { rewrite <- He. unfold extd. destruct D1 as (-> & -> & ->). reflexivity. }
      exists v2. split; [exact E|]. split; [exact D|]. exact W. }
  destruct L as (v2 & E2 & D2 & W2). rewrite E2. cbn [bind].
  exists v2. split; [reflexivity|]. split; [eapply same_dims_trans; eauto|].
  intros c Hc.
  assert (Hr : 0 <= getd d c < n + 2 * g).
  { destruct c as [[x y] z]. rewrite <- He. unfold inr, getd, extd in *.
    destruct Hd as [->|[->| ->]]; simpl in *; lia. }
  assert (Set1 : setd d (getd d c) c = c).
  { destruct c as [[x y] z]. destruct Hd as [->|[->| ->]]; reflexivity. }
  assert (Get1 : forall t, getd d (setd d t c) = t).
  { intros. destruct c as [[x y] z]. destruct Hd as [->|[->| ->]]; reflexivity. }
  assert (Inr1 : forall t, 0 <= t < n + 2 * g -> inr v (setd d t c)).
  { intros. destruct c as [[x y] z]. unfold inr, extd in *.
    destruct Hd as [->|[->| ->]]; simpl in *; lia. }
  rewrite W2 by (eapply inr_same; eauto).
  pose proof (Him _ Hr) as Hi.
  unfold masked.
  destruct (Z.ltb_spec (getd d c) g); destruct (Z.leb_spec (n + g) (getd d c));
    destruct (Z.leb_spec (g + n) (getd d c)); try lia;
    rewrite ?andb_false_r, ?andb_true_r; cbn [orb andb].
  - rewrite W1 by auto. destruct (Z.ltb_spec (getd d c) g); try lia.
    destruct (mpi (2 * d)); simpl; rewrite ?Set1; reflexivity.
  - destruct (mpi (2 * d + 1)); simpl.
    + rewrite W1 by auto. destruct (Z.ltb_spec (getd d c) g); try lia.
      rewrite andb_false_r. now rewrite Set1.
    + rewrite W1 by (apply Inr1; lia). rewrite Get1.
      destruct (Z.ltb_spec (im g n (getd d c)) g); try lia. now rewrite andb_false_r.
  - rewrite W1 by auto. destruct (Z.ltb_spec (getd d c) g); try lia.
    rewrite andb_false_r. rewrite Hid by lia. now rewrite Set1.
Qed.

Lemma apply_boundary_spec {A} (bc : bc_fun A) im (mpi : Z -> bool) (v : vol A) dims g nx ny nz :
  bc_ok bc im ->
  (forall g n t, 0 < n -> 0 <= g <= n -> 0 <= t < n + 2 * g -> g <= im g n t < g + n) ->
  (forall g n t, g <= t < g + n -> im g n t = t) ->
  1 <= dims <= 3 -> 0 <= g ->
  0 < nx -> 0 < ny -> 0 < nz ->
  g <= nx -> (1 < dims -> g <= ny) -> (2 < dims -> g <= nz) ->
  has_extents v dims g nx ny nz ->
  exists v', apply_boundary bc dims g mpi v = Ok v' /\ same_dims v v' /\
    forall c, inr v c -> vget v' c = vget v (image_masked mpi im dims g nx ny nz c).
Proof.
  intros Hbc Him Hid Hdims Hg Px Py Pz Gx Gy Gz (Ex & Ey & Ez).
  unfold apply_boundary.
  assert (G : (vnx v <? 2 * g) || (1 <? dims) && (vny v <? 2 * g)
              || (2 <? dims) && (vnz v <? 2 * g) = false).
  { rewrite Ex, Ey, Ez. destruct (Z.ltb_spec 1 dims); destruct (Z.ltb_spec 2 dims);
    repeat match goal with |- context [?a <? ?b] => destruct (Z.ltb_spec a b) end; simpl; try lia; reflexivity. }
  rewrite G. clear G.
  destruct (bc_direction bc im mpi v g nx 0) as (v1 & E1 & D1 & W1); auto; try lia.
  unfold image_masked.
  assert (C : dims = 1 \/ dims = 2 \/ dims = 3) by lia.
  destruct C as [->|C].
  { unfold for_ at 1. change (zrange 0 1) with [0]. cbn [fold_res].
    rewrite E1. cbn [bind]. exists v1. split; [reflexivity|]. split; [exact D1|].
    intros [[x y] z] Hc. rewrite W1 by exact Hc. reflexivity. }
  assert (T1 : (1 <? dims) = true) by (apply Z.ltb_lt; lia). rewrite T1 in *.
  destruct (bc_direction bc im mpi v1 g ny 1) as (v2 & E2 & D2 & W2); auto.
  { split; auto. apply Gy. lia. }
  { unfold extd. simpl. destruct D1 as (_ & <- & _). exact Ey. }
  { intros. apply Him; auto. split; auto. apply Gy; lia. }
  assert (Hb : forall x y z, inr v (x, y, z) -> inr v (x, masked (mpi 2) (mpi 3) im g ny y, z)).
  { intros x y z H. unfold inr in *. rewrite Ey in *. unfold masked.
    destruct (_ || _); [lia|]. pose proof (Him g ny y). lia. }
  destruct C as [->| ->].
  { unfold for_ at 1. change (zrange 0 2) with [0; 1] at 1. cbn [fold_res].
    rewrite E1. cbn [bind]. rewrite E2. cbn [bind].
    exists v2. split; [reflexivity|]. split; [eapply same_dims_trans; eauto|].
    intros [[x y] z] Hc. rewrite W2 by (eapply inr_same; eauto).
    cbn [setd getd Z.eqb Pos.eqb]. change (2 * 1) with 2. change (2 + 1) with 3.
    rewrite W1 by (apply Hb; exact Hc). reflexivity. }
  destruct (bc_direction bc im mpi v2 g nz 2) as (v3 & E3 & D3 & W3); auto.
  { split; auto. apply Gz. lia. }
  { unfold extd. simpl. destruct D1 as (_ & _ & E'). destruct D2 as (_ & _ & <-).
    rewrite <- E'. exact Ez. }
  { intros. apply Him; auto. split; auto. apply Gz; lia. }
  simpl in Ez.
  assert (Hb3 : forall x y z, inr v (x, y, z) -> inr v (x, y, masked (mpi 4) (mpi 5) im g nz z)).
  { intros x y z H. unfold inr in *. rewrite Ez in *. unfold masked.
    destruct (_ || _); [lia|]. pose proof (Him g nz z). lia. }
  unfold for_ at 1. change (zrange 0 3) with [0; 1; 2]. cbn [fold_res].
  rewrite E1. cbn [bind]. rewrite E2. cbn [bind]. rewrite E3. cbn [bind].
  assert (D13 : same_dims v v3) by (eapply same_dims_trans; [exact D1|eapply same_dims_trans; eauto]).
  exists v3. split; [reflexivity|]. split; [exact D13|].
  intros [[x y] z] Hc.
  rewrite W3 by (eapply inr_same; [eapply same_dims_trans; [exact D1|exact D2]|exact Hc]).
  cbn [setd getd Z.eqb Pos.eqb]. change (2 * 2) with 4. change (4 + 1) with 5.
  rewrite W2 by (eapply inr_same; [eauto|]; apply Hb3; exact Hc).
  cbn [setd getd Z.eqb Pos.eqb]. change (2 * 1) with 2. change (2 + 1) with 3.
  rewrite W1 by (apply Hb; apply Hb3; exact Hc). reflexivity.
Qed.

Lemma masked_none im g n t : masked false false im g n t = im g n t.
Proof. reflexivity. Qed.

Lemma image_none im dims g nx ny nz c :
  image_masked (fun _ => false) im dims g nx ny nz c = image im dims g nx ny nz c.
Proof. destruct c as [[x y] z]. reflexivity. Qed.

Lemma image_interior im dims g nx ny nz c :
  (forall g n t, g <= t < g + n -> im g n t = t) ->
  interior dims g nx ny nz c -> image im dims g nx ny nz c = c.
Proof.
  intros H. destruct c as [[x y] z]. unfold interior, image, interior1.
  destruct (1 <? dims); destruct (2 <? dims); intros (H1 & H2 & H3);
    rewrite ?H by assumption; reflexivity.
Qed.

Lemma map_res_spec {A B} (f : A -> res B) (P : A -> B -> Prop) l :
  (forall a, In a l -> exists b, f a = Ok b /\ P a b) ->
  exists l', map_res f l = Ok l' /\ Forall2 P l l'.
Proof.
  induction l as [|a l IH]; intros H; simpl.
  - exists []. split; auto.
  - destruct (H a) as (b & E & Pb); [now left|]. rewrite E. simpl.
    destruct IH as (l' & E' & F); [intros; apply H; now right|]. rewrite E'. simpl.
    eexists. split; [reflexivity|]. now constructor.
Qed.

Lemma boundary_areas {A} (bc : bc_fun A) im (mpi : Z -> bool) (areas : list (vol A)) dims g nx ny nz :
  bc_ok bc im ->
  (forall g n t, 0 < n -> 0 <= g <= n -> 0 <= t < n + 2 * g -> g <= im g n t < g + n) ->
  (forall g n t, g <= t < g + n -> im g n t = t) ->
  1 <= dims <= 3 -> 0 <= g ->
  0 < nx -> 0 < ny -> 0 < nz ->
  g <= nx -> (1 < dims -> g <= ny) -> (2 < dims -> g <= nz) ->
  (forall v, In v areas -> has_extents v dims g nx ny nz) ->
  exists areas', apply_boundary_conditions bc dims g mpi areas = Ok areas' /\
    Forall2 (fun v v' => has_extents v' dims g nx ny nz /\
      forall c, in_volume dims g nx ny nz c ->
        vget v' c = vget v (image_masked mpi im dims g nx ny nz c)) areas areas'.
Proof.
  intros. apply map_res_spec. intros v Hv.
  destruct (apply_boundary_spec bc im mpi v dims g nx ny nz) as (v' & E & D & W); auto.
  exists v'. split; [exact E|]. pose proof (H10 v Hv) as X.
  destruct X as (Ex & Ey & Ez). destruct D as (Dx & Dy & Dz). split.
  - unfold has_extents. now rewrite <- Dx, <- Dy, <- Dz.
  - intros [[x y] z] Hc. apply W. unfold inr, in_volume in *. rewrite Ex, Ey, Ez.
    destruct (1 <? dims); destruct (2 <? dims); exact Hc.
Qed.

Lemma neumann_areas {A} (mpi : Z -> bool) (areas : list (vol A)) dims g nx ny nz :
  1 <= dims <= 3 -> 0 <= g ->
  0 < nx -> 0 < ny -> 0 < nz ->
  g <= nx -> (1 < dims -> g <= ny) -> (2 < dims -> g <= nz) ->
  (forall v, In v areas -> has_extents v dims g nx ny nz) ->
  exists areas', apply_boundary_conditions neumann_apply dims g mpi areas = Ok areas' /\
    Forall2 (fun v v' => has_extents v' dims g nx ny nz /\
      forall c, in_volume dims g nx ny nz c ->
        vget v' c = vget v (image_masked mpi mirror1 dims g nx ny nz c)) areas areas'.
Proof.
  intros. apply boundary_areas; auto.
  - apply neumann_ok.
  - intros. apply mirror1_range; auto.
  - apply mirror1_mid.
Qed.

Lemma periodic_areas {A} (mpi : Z -> bool) (areas : list (vol A)) dims g nx ny nz :
  1 <= dims <= 3 -> 0 <= g ->
  0 < nx -> 0 < ny -> 0 < nz ->
  g <= nx -> (1 < dims -> g <= ny) -> (2 < dims -> g <= nz) ->
  (forall v, In v areas -> has_extents v dims g nx ny nz) ->
  exists areas', apply_boundary_conditions periodic_apply dims g mpi areas = Ok areas' /\
    Forall2 (fun v v' => has_extents v' dims g nx ny nz /\
      forall c, in_volume dims g nx ny nz c ->
        vget v' c = vget v (image_masked mpi periodic1 dims g nx ny nz c)) areas areas'.
Proof.
  intros. apply boundary_areas; auto.
  - apply periodic_ok.
  - intros. apply periodic1_range; auto.
  - apply periodic1_mid.
Qed.

Lemma Forall2_weaken {A B} (P Q : A -> B -> Prop) l l' :
  (forall a b, P a b -> Q a b) -> Forall2 P l l' -> Forall2 Q l l'.
Proof. intros H F. induction F; constructor; auto. Qed.

Lemma bc_serial {A} (bc : bc_fun A) im (areas : list (vol A)) dims g nx ny nz :
  (forall g n t, g <= t < g + n -> im g n t = t) ->
  (exists areas', apply_boundary_conditions bc dims g (fun _ => false) areas = Ok areas' /\
    Forall2 (fun v v' => has_extents v' dims g nx ny nz /\
      forall c, in_volume dims g nx ny nz c ->
        vget v' c = vget v (image_masked (fun _ => false) im dims g nx ny nz c)) areas areas') ->
  0 <= g ->
  exists areas', apply_boundary_conditions bc dims g (fun _ => false) areas = Ok areas' /\
    Forall2 (fun v v' => has_extents v' dims g nx ny nz /\
      (forall c, interior dims g nx ny nz c -> vget v' c = vget v c) /\
      (forall c, in_volume dims g nx ny nz c ->
        vget v' c = vget v (image im dims g nx ny nz c))) areas areas'.
Proof.
  intros Hid (areas' & E & F) Hg. exists areas'. split; [exact E|].
  eapply Forall2_weaken; [|exact F]. intros v v' (H1 & H2). split; [exact H1|]. split.
  - intros c Hc. rewrite H2.
    + rewrite image_none. now rewrite image_interior.
    + destruct c as [[x y] z]. unfold interior, in_volume, interior1 in *.
      destruct (1 <? dims); destruct (2 <? dims); lia.
  - intros c Hc. rewrite H2 by exact Hc. now rewrite image_none.
Qed.

(** A stencil wider than the interior: the guard does not fire and the ghost
    cell keeps whatever was in memory. *)
Definition small_vol : vol Z := {| vnx := 5; vny := 1; vnz := 1; vdat := fun i => 10 + i |}.

Lemma neumann_small :
  exists v' : vol Z,
    has_extents small_vol 1 2 1 1 1 /\
    apply_boundary neumann_apply 1 2 (fun _ => false) small_vol = Ok v' /\
    vget small_vol (3, 0, 0) = 13 /\ ~ interior 1 2 1 1 1 (3, 0, 0) /\
    vget v' (0, 0, 0) = 13.
Proof.
  unfold apply_boundary. cbn -[for_]. eexists.
  split; [repeat split|]. split; [vm_compute; reflexivity|].
  split; [reflexivity|]. split; [unfold interior, interior1; lia|]. reflexivity.
Qed.

Lemma periodic_serial {A} (areas : list (vol A)) dims g nx ny nz :
  1 <= dims <= 3 -> 0 <= g ->
  0 < nx -> 0 < ny -> 0 < nz ->
  g <= nx -> (1 < dims -> g <= ny) -> (2 < dims -> g <= nz) ->
  (forall v, In v areas -> has_extents v dims g nx ny nz) ->
  exists areas', apply_boundary_conditions periodic_apply dims g (fun _ => false) areas = Ok areas' /\
    Forall2 (fun v v' => has_extents v' dims g nx ny nz /\
      (forall c, interior dims g nx ny nz c -> vget v' c = vget v c) /\
      (forall c, in_volume dims g nx ny nz c ->
        vget v' c = vget v (image periodic1 dims g nx ny nz c))) areas areas'.
Proof.
  intros. apply bc_serial; auto.
  - apply periodic1_mid.
  - apply periodic_areas; auto.
Qed.

Lemma neumann_serial {A} (areas : list (vol A)) dims g nx ny nz :
  1 <= dims <= 3 -> 0 <= g ->
  0 < nx -> 0 < ny -> 0 < nz ->
  g <= nx -> (1 < dims -> g <= ny) -> (2 < dims -> g <= nz) ->
  (forall v, In v areas -> has_extents v dims g nx ny nz) ->
  exists areas', apply_boundary_conditions neumann_apply dims g (fun _ => false) areas = Ok areas' /\
    Forall2 (fun v v' => has_extents v' dims g nx ny nz /\
      (forall c, interior dims g nx ny nz c -> vget v' c = vget v c) /\
      (forall c, in_volume dims g nx ny nz c ->
        vget v' c = vget v (image mirror1 dims g nx ny nz c))) areas areas'.
Proof.
  intros. apply bc_serial; auto.
  - apply mirror1_mid.
  - apply neumann_areas; auto.
Qed.
