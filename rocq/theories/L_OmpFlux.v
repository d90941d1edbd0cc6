(** The parallel loops of the right hand side. *)
From Coq Require Import ZArith Reals List Bool Lia Lra Permutation FunctionalExtensionality.
From Verif Require Import M_Base L_Base M_Vec M_Boundary M_Flux M_Sim M_Memory M_Omp L_Omp.
From Verif Require L_Foreach.
Import ListNotations.
Open Scope Z_scope.

Section Seq.
Context {A X : Type}.
Variable size : Z -> Z.
Notation prog := (prog A X).
Notation shared := (shared A).

Definition acc {I} (f : I -> prog) (i : I) (s : shared * list X) : res (shared * list X) :=
  r <- run size (f i) (fst s);; Ok (fst r, snd s ++ snd r).

Lemma fold_acc {I} (f : I -> prog) l : forall m ys,
  fold_res (acc f) l (m, ys) = (r <- fold_res (acc f) l (m, []);; Ok (fst r, ys ++ snd r)).
Proof.
  induction l as [|i l IH]; intros m ys; cbn.
  - rewrite app_nil_r. reflexivity.
  - assert (forall zs, acc f i (m, zs) = (r <- run size (f i) m;; Ok (fst r, zs ++ snd r))) as E by reflexivity.
    rewrite !E. destruct (run size (f i) m) as [[m1 xs]| |]; cbn [bind fst snd app]; auto.
    rewrite (IH m1 (ys ++ xs)), (IH m1 xs).
    destruct (fold_res (acc f) l (m1, [])) as [[]| |]; cbn; auto. rewrite app_assoc. reflexivity.
Qed.

Lemma run_after xs (q : prog) : forall m, run size (after_ xs q) m = (r <- run size q m;; Ok (fst r, xs ++ snd r)).
Proof.
  induction q as [ys|a i k IH|a i v k IH|]; intros m; cbn; auto.
  - destruct (inside size a i); auto.
  - destruct (inside size a i); auto.
Qed.
Lemma run_then (p q : prog) : forall m, run size (then_ p q) m =
  (r <- run size p m;; r2 <- run size q (fst r);; Ok (fst r2, snd r ++ snd r2)).
Proof.
  induction p as [ys|a i k IH|a i v k IH|]; intros m; cbn; auto.
  - apply run_after.
  - destruct (inside size a i); auto.
  - destruct (inside size a i); auto.
Qed.
Lemma run_inner l (body : Z -> prog) : forall m, run size (inner_loop l body) m = fold_res (acc body) l (m, []).
Proof.
  induction l as [|i l IH]; intros m; cbn; auto.
  rewrite run_then. unfold acc at 1. cbn [fst snd]. destruct (run size (body i) m) as [[m1 xs]| |]; cbn; auto.
  rewrite (fold_acc body l m1 xs). fold (inner_loop l body). rewrite IH. reflexivity.
Qed.

Lemma run_loop_map l (body : Z -> prog) m : run_loop size (map body l) m = fold_res (acc body) l (m, []).
Proof. unfold run_loop. rewrite fold_res_map. reflexivity. Qed.

Lemma run_loops_app (a b : list (list prog)) m : run_loops size (a ++ b) m =
  (r <- run_loops size a m;; r2 <- run_loops size b (fst r);; Ok (fst r2, snd r ++ snd r2)).
Proof.
  revert m. induction a as [|p a IH]; intros m.
  - cbn [app]. unfold run_loops at 2. cbn. destruct (run_loops size b m) as [[]| |]; auto.
  - cbn [app]. rewrite !run_loops_cons. destruct (run_loop size p m) as [[m1 xs]| |]; cbn; auto.
    rewrite IH. destruct (run_loops size a m1) as [[m2 ys]| |]; cbn; auto.
    destruct (run_loops size b m2) as [[m3 zs]| |]; cbn; auto. rewrite app_assoc. reflexivity.
Qed.

(** [f] run after [s] behaves as from an empty list. *)
Definition additive (f : shared * list X -> res (shared * list X)) : Prop :=
  forall m ys, f (m, ys) = (r <- f (m, []);; Ok (fst r, ys ++ snd r)).

Lemma additive_acc {I} (f : I -> prog) i : additive (acc f i).
Proof. intros m ys. unfold acc. cbn. destruct (run size (f i) m) as [[]| |]; auto. Qed.
Lemma additive_fold {I} (f : I -> shared * list X -> res (shared * list X)) l :
  (forall i, additive (f i)) -> additive (fold_res f l).
Proof.
  intros H. induction l as [|i l IH]; intros m ys; cbn.
  - rewrite app_nil_r. reflexivity.
  - rewrite (H i m ys). destruct (f i (m, [])) as [[m1 xs]| |]; cbn; auto.
    rewrite (IH m1 (ys ++ xs)), (IH m1 xs). destruct (fold_res f l (m1, [])) as [[]| |]; cbn; auto.
    rewrite app_assoc. reflexivity.
Qed.

Lemma run_loops_map {I} (l : list I) (h : I -> list prog) (f : I -> shared * list X -> res (shared * list X)) :
  (forall i, additive (f i)) -> (forall i m, run_loop size (h i) m = f i (m, [])) ->
  forall m, run_loops size (map h l) m = fold_res f l (m, []).
Proof.
  intros Ha Hh. induction l as [|i l IH]; intros m; [reflexivity|].
  cbn [map]. rewrite run_loops_cons, Hh. cbn. destruct (f i (m, [])) as [[m1 xs]| |]; cbn; auto.
  rewrite IH, (additive_fold f l Ha m1 xs). reflexivity.
Qed.

Definition acc3 (body : Z -> Z -> Z -> prog) (x y z : Z) (s : shared * list X) : res (shared * list X) :=
  r <- run size (body x y z) (fst s);; Ok (fst r, snd s ++ snd r).

Lemma run_par_y zlo zhi ylo yhi xlo xhi body m :
  run_loops size (par_y zlo zhi ylo yhi xlo xhi body) m = for3 zlo zhi ylo yhi xlo xhi (acc3 body) (m, []).
Proof.
  unfold par_y, for3, for_. apply run_loops_map.
  - intros z. apply additive_fold. intros y. apply additive_fold. intros x. apply (additive_acc (fun x => body x y z)).
  - intros z m1. rewrite run_loop_map. apply fold_res_ext. intros y [m2 ys] _. unfold acc. cbn [fst snd].
    rewrite run_inner. symmetry. apply (fold_acc (fun x => body x y z)).
Qed.

Lemma run_par_x zlo zhi ylo yhi xlo xhi body m :
  run_loops size (par_x zlo zhi ylo yhi xlo xhi body) m = for3 zlo zhi ylo yhi xlo xhi (acc3 body) (m, []).
Proof.
  unfold par_x, for3, for_.
  assert (forall z, additive (fold_res (fun y => fold_res (fun x => acc3 body x y z) (zrange xlo xhi)) (zrange ylo yhi))) as Ha.
  { intros z. apply additive_fold. intros y. apply additive_fold. intros x. apply (additive_acc (fun x => body x y z)). }
  revert m. induction (zrange zlo zhi) as [|z l IH]; intros m; [reflexivity|].
  cbn [flat_map fold_res]. rewrite run_loops_app.
  rewrite (run_loops_map (zrange ylo yhi) (fun y => map (fun x => body x y z) (zrange xlo xhi))
            (fun y => fold_res (fun x => acc3 body x y z) (zrange xlo xhi))).
  - destruct (fold_res _ (zrange ylo yhi) (m, [])) as [[m1 xs]| |]; cbn [bind fst snd]; auto.
    rewrite IH. symmetry. exact (additive_fold _ l Ha m1 xs).
  - intros y. apply additive_fold. intros x. apply (additive_acc (fun x => body x y z)).
  - intros y m1. rewrite run_loop_map. reflexivity.
Qed.

(** Accesses of compound programs. *)
Lemma accs_after xs (q : prog) w a i : accs (after_ xs q) w a i -> accs q w a i.
Proof.
  induction q as [ys|b j k IH|b j v k IH|]; cbn; intros H; inversion H; subst; econstructor; eauto.
Qed.
Lemma accs_then (p q : prog) w a i : accs (then_ p q) w a i -> accs p w a i \/ accs q w a i.
Proof.
  induction p as [ys|b j k IH|b j v k IH|]; cbn; intros H.
  - right. eapply accs_after; eauto.
  - inversion H; subst; [left; constructor|].
    match goal with K : accs (then_ _ q) w a i |- _ => destruct (IH _ K) as [|] end; [left; econstructor; eauto|auto].
  - inversion H; subst; [left; constructor|].
    match goal with K : accs (then_ _ q) w a i |- _ => destruct (IH K) as [|] end; [left; econstructor; eauto|auto].
  - inversion H.
Qed.
Lemma accs_inner l (body : Z -> prog) w a i : accs (inner_loop l body) w a i -> exists x, In x l /\ accs (body x) w a i.
Proof.
  induction l as [|y l IH]; cbn; intros H; [inversion H|].
  apply accs_then in H. destruct H as [H|H]; [exists y; auto|]. destruct (IH H) as (x & Hx & H1). exists x; auto.
Qed.

Variables nx ny nz : Z.
Notation cell_in := (cell_in nx ny nz).

(** The arrays in [wr] are touched only at the place of the iteration. *)
Definition owned (body : Z -> Z -> Z -> prog) : Prop :=
  exists (wr : Z -> bool) (ox oy oz : Z), forall x y z w a i, accs (body x y z) w a i ->
    (w = true -> wr a = true) /\
    (wr a = true -> cell_in (x + ox) (y + oy) (z + oz) = true /\ i = index nx ny (x + ox) (y + oy) (z + oz)).

Lemma cell_index_inj x y z x' y' z' : cell_in x y z = true -> cell_in x' y' z' = true ->
  index nx ny x y z = index nx ny x' y' z' -> x = x' /\ y = y' /\ z = z'.
Proof.
  unfold M_Omp.cell_in. rewrite !andb_true_iff, !Z.leb_le, !Z.ltb_lt. intros H1 H2 H3.
  eapply index_inj; try exact H3; lia.
Qed.

Lemma map_independent {I} (l : list I) (h : I -> prog) : NoDup l ->
  (forall i j, In i l -> In j l -> i <> j -> apart (h i) (h j)) -> independent (map h l).
Proof.
  intros Hn. induction Hn as [|i l Hi Hn IH]; intros H; constructor.
  - rewrite Forall_forall. intros q Hq. apply in_map_iff in Hq. destruct Hq as (j & <- & Hj).
    apply H; cbn; auto. intros ->. auto.
  - apply IH. intros; apply H; cbn; auto.
Qed.

Lemma owned_apart (wr : Z -> bool) ox oy oz (body : Z -> Z -> Z -> prog) x y z x' y' z' :
  (forall x y z w a i, accs (body x y z) w a i ->
    (w = true -> wr a = true) /\
    (wr a = true -> cell_in (x + ox) (y + oy) (z + oz) = true /\ i = index nx ny (x + ox) (y + oy) (z + oz))) ->
  (x, y, z) <> (x', y', z') -> apart (body x y z) (body x' y' z').
Proof.
  intros H Hne w w' a i H1 H2. destruct (H _ _ _ _ _ _ H1) as [W1 O1]. destruct (H _ _ _ _ _ _ H2) as [W2 O2].
  destruct (wr a) eqn:E.
  - destruct (O1 eq_refl) as [C1 E1]. destruct (O2 eq_refl) as [C2 E2]. exfalso. apply Hne.
    rewrite E1 in E2. destruct (cell_index_inj _ _ _ _ _ _ C1 C2 E2) as (? & ? & ?). repeat f_equal; lia.
  - destruct w; [discriminate (W1 eq_refl)|]. destruct w'; [discriminate (W2 eq_refl)|]. auto.
Qed.

Lemma par_y_independent zlo zhi ylo yhi xlo xhi body : owned body ->
  Forall independent (par_y zlo zhi ylo yhi xlo xhi body).
Proof.
  intros (wr & ox & oy & oz & H). apply Forall_forall. intros ps Hps. unfold par_y in Hps.
  apply in_map_iff in Hps. destruct Hps as (z & <- & _).
  apply map_independent; [apply zrange_NoDup|]. intros y y' _ _ Hne w w' a i H1 H2.
  apply accs_inner in H1. apply accs_inner in H2. destruct H1 as (x & _ & H1). destruct H2 as (x' & _ & H2).
  apply (owned_apart wr ox oy oz body x y z x' y' z H) with (a := a) (i := i); auto. congruence.
Qed.
Lemma par_x_independent zlo zhi ylo yhi xlo xhi body : owned body ->
  Forall independent (par_x zlo zhi ylo yhi xlo xhi body).
Proof.
  intros (wr & ox & oy & oz & H). apply Forall_forall. intros ps Hps. unfold par_x in Hps.
  apply in_flat_map in Hps. destruct Hps as (z & _ & Hps).
  apply in_map_iff in Hps. destruct Hps as (y & <- & _).
  apply map_independent; [apply zrange_NoDup|]. intros x x' _ _ Hne.
  apply (owned_apart wr ox oy oz body x y z x' y z H). congruence.
Qed.

Lemma accs_pload a x y z k w b j : accs (pload (X := X) nx ny nz a x y z k) w b j ->
  cell_in x y z = true /\ ((w = false /\ b = a /\ j = index nx ny x y z) \/ exists v : A, accs (k v) w b j).
Proof.
  unfold pload. destruct (cell_in x y z); intros H; inversion H; subst; split; auto. right; eauto.
Qed.
Lemma accs_pstore a x y z (v : A) k w b j : accs (pstore (X := X) nx ny nz a x y z v k) w b j ->
  cell_in x y z = true /\ ((w = true /\ b = a /\ j = index nx ny x y z) \/ accs k w b j).
Proof.
  unfold pstore. destruct (cell_in x y z); intros H; inversion H; subst; split; auto.
Qed.
Lemma accs_ploads a cs : forall (k : list A -> prog) w b j, accs (ploads nx ny nz a cs k) w b j ->
  (w = false /\ b = a) \/ exists vs, accs (k vs) w b j.
Proof.
  induction cs as [|[[x y] z] cs IH]; cbn; intros k w b j H; [right; eauto|].
  apply accs_pload in H. destruct H as [_ [(? & ? & _)|(v & H)]]; [auto|].
  destruct (IH _ _ _ _ H) as [?|(vs & ?)]; [auto|]. right; eauto.
Qed.

Lemma fold_res_sim {I S T} (f : I -> S -> res S) (h : I -> T -> res T) (R : S -> T -> Prop) l :
  (forall i s t s', R s t -> f i s = Ok s' -> exists t', h i t = Ok t' /\ R s' t') ->
  forall s t s', R s t -> fold_res f l s = Ok s' -> exists t', fold_res h l t = Ok t' /\ R s' t'.
Proof.
  intros H. induction l as [|i l IH]; cbn; intros s t s' HR E.
  - injection E as <-. eauto.
  - destruct (f i s) as [s1| |] eqn:E1; cbn in E; try discriminate.
    destruct (H _ _ _ _ HR E1) as (t1 & -> & HR1). cbn. eapply IH; eauto.
Qed.
Lemma for3_sim {S T} zlo zhi ylo yhi xlo xhi (f : Z -> Z -> Z -> S -> res S) s s' :
  for3 zlo zhi ylo yhi xlo xhi f s = Ok s' ->
  forall (h : Z -> Z -> Z -> T -> res T) (R : S -> T -> Prop) t,
  (forall x y z s t s', R s t -> f x y z s = Ok s' -> exists t', h x y z t = Ok t' /\ R s' t') -> R s t ->
  exists t', for3 zlo zhi ylo yhi xlo xhi h t = Ok t' /\ R s' t'.
Proof.
  intros E h R t H HR. revert s t s' HR E. unfold for3, for_. apply fold_res_sim. intros z. apply fold_res_sim. intros y. apply fold_res_sim.
  intros x. apply H.
Qed.
End Seq.

Section Sim.
Context {V : cvars}.
Variables (dims g : Z) (fx : numflux V) (rc : recon V) (nx ny nz : Z) (start fin : ivec).
Definition area (a : Z) : Z := nx * ny * nz.
Notation size := area.
Notation pr := (prog V (Z * R)).

Definition dims3 {A} (v : vol A) : Prop := vnx v = nx /\ vny v = ny /\ vnz v = nz.
Definition holds (m : shared V) (a : Z) (v : vol V) : Prop := dims3 v /\ forall i, m a i = vdat v i.
Definition memrel (u : vol V) (s : fstate V) (m : shared V) : Prop :=
  dims3 u /\ dims3 (f_left s) /\ dims3 (f_right s) /\ dims3 (f_temp s) /\ dims3 (f_out s) /\
  forall a i, m a i = flux_mem u s a i.

Lemma inside_cell a x y z : cell_in nx ny nz x y z = true -> inside size a (index nx ny x y z) = true.
Proof.
  unfold cell_in, inside, area. rewrite !andb_true_iff, !Z.leb_le, !Z.ltb_lt. intros H.
  apply L_Foreach.index_range; lia.
Qed.
Lemma inb_cell {A} (v : vol A) x y z : dims3 v -> inb v x y z = cell_in nx ny nz x y z.
Proof. intros (E1 & E2 & E3). unfold inb, cell_in. rewrite E1, E2, E3. reflexivity. Qed.

Lemma run_pload m a (v : vol V) x y z b (k : V -> pr) : holds m a v -> vload v x y z = Ok b ->
  run size (pload nx ny nz a x y z k) m = run size (k b) m.
Proof.
  intros [Hd Hm]. unfold vload, pload. rewrite (inb_cell v x y z Hd).
  destruct (cell_in nx ny nz x y z) eqn:E; [|discriminate]. intros H. injection H as <-.
  destruct Hd as (-> & -> & _). cbn [run]. rewrite (inside_cell a x y z E), Hm. reflexivity.
Qed.
Lemma run_pstore m a (v v' : vol V) x y z b (k : pr) : dims3 v -> vstore v x y z b = Ok v' ->
  run size (pstore nx ny nz a x y z b k) m = run size k (put m a (index nx ny x y z) b) /\
  dims3 v' /\ forall j, vdat v' j = if j =? index nx ny x y z then b else vdat v j.
Proof.
  intros Hd. unfold vstore, pstore. rewrite (inb_cell v x y z Hd).
  destruct (cell_in nx ny nz x y z) eqn:E; [|discriminate]. intros H. injection H as <-.
  destruct Hd as (E1 & E2 & E3). cbn [run]. rewrite (inside_cell a x y z E).
  split; [reflexivity|]. split; [repeat split; assumption|]. cbn [vdat]. rewrite E1, E2. reflexivity.
Qed.
Lemma run_ploads m a (v : vol V) (hx hy hz : Z -> Z) l : holds m a v -> forall us (k : list V -> pr),
  map_res (fun j => vload v (hx j) (hy j) (hz j)) l = Ok us ->
  run size (ploads nx ny nz a (map (fun j => (hx j, hy j, hz j)) l) k) m = run size (k us) m.
Proof.
  intros Hh. induction l as [|j l IH]; cbn [map map_res ploads]; intros us k H.
  - injection H as <-. reflexivity.
  - destruct (vload v (hx j) (hy j) (hz j)) as [b| |] eqn:E; cbn in H; try discriminate.
    destruct (map_res _ l) as [bs| |] eqn:E2; cbn in H; try discriminate. injection H as <-.
    rewrite (run_pload m a v _ _ _ b _ Hh E). apply (IH bs (fun vs => k (b :: vs))). reflexivity.
Qed.

Lemma rel_u u s m : memrel u s m -> holds m a_u u.
Proof. intros (H & _ & _ & _ & _ & E). split; [exact H|]. intros i. rewrite E. reflexivity. Qed.
Lemma rel_left u s m : memrel u s m -> holds m a_left (f_left s).
Proof. intros (_ & H & _ & _ & _ & E). split; [exact H|]. intros i. rewrite E. reflexivity. Qed.
Lemma rel_right u s m : memrel u s m -> holds m a_right (f_right s).
Proof. intros (_ & _ & H & _ & _ & E). split; [exact H|]. intros i. rewrite E. reflexivity. Qed.
Lemma rel_temp u s m : memrel u s m -> holds m a_temp (f_temp s).
Proof. intros (_ & _ & _ & H & _ & E). split; [exact H|]. intros i. rewrite E. reflexivity. Qed.
Lemma rel_out u s m : memrel u s m -> holds m a_out (f_out s).
Proof. intros (_ & _ & _ & _ & H & E). split; [exact H|]. intros i. rewrite E. reflexivity. Qed.

Ltac put_tac :=
  intros (H0 & H1 & H2 & H3 & H4 & E) Hd Hv; unfold memrel; cbn [f_left f_right f_temp f_out];
  do 5 (split; [assumption|]); intros b j; unfold put; rewrite E; unfold flux_mem;
  unfold a_left, a_right, a_temp, a_out; cbn [f_left f_right f_temp f_out];
  repeat match goal with |- context [b =? ?k] => destruct (Z.eqb_spec b k); subst; cbn [andb] end;
  try reflexivity; try discriminate; rewrite ?Hv; try reflexivity; exfalso; lia.

Lemma put_left u l r t o sp m l' p v : memrel u (mkfstate l r t o sp) m -> dims3 l' ->
  (forall j, vdat l' j = if j =? p then v else vdat l j) ->
  memrel u (mkfstate l' r t o sp) (put m a_left p v).
Proof. put_tac. Qed.
Lemma put_right u l r t o sp m r' p v : memrel u (mkfstate l r t o sp) m -> dims3 r' ->
  (forall j, vdat r' j = if j =? p then v else vdat r j) ->
  memrel u (mkfstate l r' t o sp) (put m a_right p v).
Proof. put_tac. Qed.
Lemma put_temp u l r t o sp m t' p v : memrel u (mkfstate l r t o sp) m -> dims3 t' ->
  (forall j, vdat t' j = if j =? p then v else vdat t j) ->
  memrel u (mkfstate l r t' o sp) (put m a_temp p v).
Proof. put_tac. Qed.
Lemma put_out u l r t o sp m o' p v : memrel u (mkfstate l r t o sp) m -> dims3 o' ->
  (forall j, vdat o' j = if j =? p then v else vdat o j) ->
  memrel u (mkfstate l r t o' sp) (put m a_out p v).
Proof. put_tac. Qed.

Lemma zero_sim u l r t o sp m o' : memrel u (mkfstate l r t o sp) m ->
  make_zero dims g start fin o = Ok o' ->
  exists m', run_loops size (omp_make_zero dims g nx ny nz start fin) m = Ok (m', []) /\
    memrel u (mkfstate l r t o' sp) m'.
Proof.
  intros HR H. unfold omp_make_zero. rewrite run_par_y.
  pose proof (proj1 (rel_out _ _ _ HR)) as (E1 & E2 & E3). cbn [f_out] in E1, E2, E3.
  unfold make_zero in H. cbv zeta in H. rewrite E1, E2, E3 in H.
  pose (Q (o : vol V) (t' : shared V * list (Z * R)) := memrel u (mkfstate l r t o sp) (fst t') /\ snd t' = []).
  destruct (for3_sim _ _ _ _ _ _ _ _ _ H (acc3 size (zero_body nx ny nz)) Q (m, []))
    as ([m' xs] & Hr & HR').
  - clear - V. intros x y z s [m xs] s' [HR Hx] Hs. cbn [fst snd] in *. unfold acc3, zero_body. cbn [fst snd].
    destruct (run_pstore m a_out s s' x y z vzero (Ret []) (proj1 (rel_out _ _ _ HR)) Hs) as (Hr & Hd & Hv).
    rewrite Hr. cbn. eexists. split; [reflexivity|]. split; cbn [fst snd].
    + eapply put_out; eauto.
    + rewrite Hx. reflexivity.
  - split; auto.
  - destruct HR' as [HR' Hx]. cbn [fst snd] in *. subst xs. exists m'. split; [exact Hr|exact HR'].
Qed.

Lemma recon_sim u l r t o sp m d l' r' : memrel u (mkfstate l r t o sp) m ->
  reconstruct dims rc d u l r start fin = Ok (l', r') ->
  exists m', run_loops size (omp_reconstruct dims rc nx ny nz start fin d) m = Ok (m', []) /\
    memrel u (mkfstate l' r' t o sp) m'.
Proof.
  intros HR H. unfold omp_reconstruct. cbv zeta.
  pose proof (proj1 (rel_u _ _ _ HR)) as (E1 & E2 & E3).
  unfold reconstruct in H. cbv zeta in H. rewrite E1, E2, E3 in H.
  match type of H with for3 ?a ?b ?c ?d1 ?e ?f ?body _ = _ =>
    assert (exists m', for3 a b c d1 e f (acc3 size (recon_body rc nx ny nz d)) (m, []) = Ok (m', []) /\
      memrel u (mkfstate l' r' t o sp) m') as (m' & Hr & HR') end.
  { pose (Q (lr : vol V * vol V) (t' : shared V * list (Z * R)) :=
      memrel u (mkfstate (fst lr) (snd lr) t o sp) (fst t') /\ snd t' = []).
    destruct (for3_sim _ _ _ _ _ _ _ _ _ H (acc3 size (recon_body rc nx ny nz d)) Q (m, [])) as ([m' xs] & Hr & HR').
    - clear - V. intros x y z [l r] [m xs] s' [HR Hx] Hs. cbn [fst snd] in *. unfold acc3, recon_body. cbn [fst snd].
      destruct (map_res _ _) as [us| |] eqn:Eu in Hs; cbn [bind] in Hs; try discriminate.
      destruct (vstore l x y z _) as [l'| |] eqn:El; cbn [bind] in Hs; try discriminate.
      destruct (vstore r x y z _) as [r'| |] eqn:Er; cbn [bind] in Hs; try discriminate.
      injection Hs as <-.
      rewrite (run_ploads m a_u u (fun j => x + unit_ d 0 * j) (fun j => y + unit_ d 1 * j)
                 (fun j => z + unit_ d 2 * j) _ (rel_u _ _ _ HR) us _ Eu).
      destruct (run_pstore m a_left l l' x y z _ (pstore nx ny nz a_right x y z (snd (rec_fun rc us)) (Ret []))
                  (proj1 (rel_left _ _ _ HR)) El) as (Hr & Hd & Hv).
      rewrite Hr. pose proof (put_left _ _ _ _ _ _ _ _ _ _ HR Hd Hv) as HR1.
      destruct (run_pstore (put m a_left (index nx ny x y z) (fst (rec_fun rc us))) a_right r r' x y z _ (Ret [])
                  (proj1 (rel_right _ _ _ HR1)) Er) as (Hr2 & Hd2 & Hv2).
      rewrite Hr2. cbn [run bind fst snd]. eexists. split; [reflexivity|]. split; cbn [fst snd].
      + eapply put_right; eauto.
      + rewrite Hx. reflexivity.
    - split; auto.
    - destruct HR' as [HR' Hx]. cbn [fst snd] in *. subst xs. exists m'. split; [exact Hr|exact HR']. }
  exists m'. split; [|exact HR'].
  destruct (rec_all rc); [rewrite run_par_x|rewrite run_par_y]; exact Hr.
Qed.

Definition top (xs : list R) : R := fold_left Rmax xs 0%R.

Lemma flux_sim u l r t o sp m d o' t' w : memrel u (mkfstate l r t o sp) m ->
  net_flux dims g fx d l r o t start fin = Ok (o', t', w) ->
  exists m' xs, run_loops size (omp_net_flux dims g fx nx ny nz start fin d) m = Ok (m', xs) /\
    memrel u (mkfstate l r t' o' sp) m' /\ w = top (map snd xs) /\ (forall x, In x xs -> fst x = d).
Proof.
  intros HR H. unfold omp_net_flux. cbv zeta. rewrite run_loops_app, run_par_y.
  pose proof (proj1 (rel_out _ _ _ HR)) as (E1 & E2 & E3). cbn [f_out] in E1, E2, E3.
  unfold net_flux in H. cbv zeta in H. rewrite E1, E2, E3 in H.
  destruct (for3 _ _ _ _ _ _ _ (t, 0%R)) as [[t1 w1]| |] eqn:H1; cbn [bind fst snd] in H; try discriminate.
  destruct (for3 _ _ _ _ _ _ _ o) as [o1| |] eqn:H2; cbn [bind fst snd] in H; try discriminate.
  injection H as <- <- <-.
  pose (R1 (tw : vol V * R) (s' : shared V * list (Z * R)) :=
    memrel u (mkfstate l r (fst tw) o sp) (fst s') /\ snd tw = top (map snd (snd s')) /\
    (forall x, In x (snd s') -> fst x = d)).
  destruct (for3_sim _ _ _ _ _ _ _ _ _ H1 (acc3 size (flux_body fx nx ny nz d)) R1 (m, [])) as ([m1 xs1] & Hr1 & HR1 & Hw1 & Hd1).
  { clear - V. intros x y z [t w] [m xs] s' (HR & Hw & Hx) Hs. cbn [fst snd] in *. unfold acc3. cbn [fst snd].
    destruct (flux_at fx d l r x y z) as [fs| |] eqn:Ef; cbn [bind] in Hs; try discriminate.
    destruct (vstore t x y z _) as [t'| |] eqn:Et; cbn [bind] in Hs; try discriminate.
    injection Hs as <-.
    assert (run size (flux_body fx nx ny nz d x y z) m =
            run size (pstore nx ny nz a_temp x y z (vscal (-1) (fst fs)) (Ret [(d, snd fs)])) m) as Hr.
    { unfold flux_body, flux_at in *. destruct fx as [f|st f].
      - destruct (vload l _ _ _) as [br| |] eqn:Eb; cbn [bind] in Ef; try discriminate.
        destruct (vload r _ _ _) as [bl| |] eqn:Eb2; cbn [bind] in Ef; try discriminate. injection Ef as <-.
        rewrite (run_pload m a_left l _ _ _ br _ (rel_left _ _ _ HR) Eb).
        rewrite (run_pload m a_right r _ _ _ bl _ (rel_right _ _ _ HR) Eb2). reflexivity.
      - destruct (map_res _ _) as [us| |] eqn:Eu; cbn [bind] in Ef; try discriminate. injection Ef as <-.
        rewrite (run_ploads m a_left l (fun j => x + unit_ d 0 * j) (fun j => y + unit_ d 1 * j)
                 (fun j => z + unit_ d 2 * j) _ (rel_left _ _ _ HR) us _ Eu). reflexivity. }
    rewrite Hr.
    destruct (run_pstore m a_temp t t' x y z _ (Ret [(d, snd fs)]) (proj1 (rel_temp _ _ _ HR)) Et) as (Hr2 & Hd & Hv).
    rewrite Hr2. cbn [run bind fst snd]. eexists. split; [reflexivity|]. split; [|split]; cbn [fst snd].
    - eapply put_temp; eauto.
    - unfold top in *. rewrite map_app, fold_left_app, <- Hw. reflexivity.
    - intros q Hq. apply in_app_iff in Hq. destruct Hq as [Hq|[<-|[]]]; auto. }
  { split; [exact HR|]. split; [reflexivity|]. intros q []. }
  cbn [fst snd] in HR1, Hw1, Hd1. rewrite Hr1. cbn [bind fst snd]. rewrite run_par_y.
  pose (R2 (o : vol V) (s' : shared V * list (Z * R)) :=
    memrel u (mkfstate l r t1 o sp) (fst s') /\ snd s' = []).
  destruct (for3_sim _ _ _ _ _ _ _ _ _ H2 (acc3 size (difference_body nx ny nz d)) R2 (m1, [])) as ([m2 xs2] & Hr2 & HR2 & Hx2).
  { clear - V. intros x y z o [m xs] o' (HR & Hx) Hs. cbn [fst snd] in *. unfold acc3, difference_body. cbn [fst snd].
    destruct (vload t1 (x + _) _ _) as [a| |] eqn:Ea; cbn [bind] in Hs; try discriminate.
    destruct (vload t1 x _ _) as [b| |] eqn:Eb; cbn [bind] in Hs; try discriminate.
    destruct (vload o _ _ _) as [c| |] eqn:Ec; cbn [bind] in Hs; try discriminate.
    rewrite (run_pload m a_temp t1 _ _ _ a _ (rel_temp _ _ _ HR) Ea).
    rewrite (run_pload m a_temp t1 _ _ _ b _ (rel_temp _ _ _ HR) Eb).
    rewrite (run_pload m a_out o _ _ _ c _ (rel_out _ _ _ HR) Ec).
    destruct (run_pstore m a_out o o' _ _ _ _ (Ret []) (proj1 (rel_out _ _ _ HR)) Hs) as (Hr2 & Hd & Hv).
    rewrite Hr2. cbn [run bind fst snd]. eexists. split; [reflexivity|]. split; cbn [fst snd].
    - eapply put_out; eauto.
    - rewrite Hx. reflexivity. }
  { split; [exact HR1|reflexivity]. }
  cbn [fst snd] in HR2, Hx2. subst xs2. rewrite Hr2. cbn [bind fst snd]. rewrite app_nil_r.
  exists m2, xs1. auto.
Qed.

(** The contributions of one direction. *)
Definition of_direction (d : Z) (xs : list (Z * R)) : list R := map snd (filter (fun x => fst x =? d) xs).

Lemma of_direction_all d xs : (forall x, In x xs -> fst x = d) -> of_direction d xs = map snd xs.
Proof.
  intros H. unfold of_direction. f_equal. induction xs as [|x xs IH]; cbn; auto.
  rewrite (H x (or_introl eq_refl)), Z.eqb_refl. f_equal. apply IH. intros; apply H; cbn; auto.
Qed.
Lemma of_direction_none d xs : (forall x, In x xs -> fst x <> d) -> of_direction d xs = [].
Proof.
  intros H. unfold of_direction. induction xs as [|x xs IH]; cbn; auto.
  destruct (Z.eqb_spec (fst x) d); [exfalso; apply (H x); cbn; auto|]. apply IH. intros; apply H; cbn; auto.
Qed.
Lemma of_direction_app d xs ys : of_direction d (xs ++ ys) = of_direction d xs ++ of_direction d ys.
Proof. unfold of_direction. rewrite filter_app, map_app. reflexivity. Qed.

Lemma compute_sim u s m s' : memrel u s m -> compute_flux dims g fx rc u start fin s = Ok s' ->
  exists m' xs, run_loops size (omp_compute_flux dims g fx rc nx ny nz start fin) m = Ok (m', xs) /\
    memrel u s' m' /\ (forall x, In x xs -> 0 <= fst x < dims) /\
    (forall d, 0 <= d < dims -> f_speed s' d = top (of_direction d xs)) /\
    (forall d, ~ 0 <= d < dims -> f_speed s' d = f_speed s d).
Proof.
  intros HR H. unfold compute_flux in H. destruct s as [l r t o sp]. cbn [f_left f_right f_temp f_out f_speed] in H.
  destruct (make_zero _ _ _ _ _) as [o1| |] eqn:Hz; cbn [bind] in H; try discriminate.
  destruct (zero_sim _ _ _ _ _ _ _ _ HR Hz) as (m1 & Hr1 & HR1).
  unfold omp_compute_flux, M_Omp.pr. rewrite run_loops_app, Hr1. cbn [bind fst snd app].
  clear HR Hz Hr1. unfold for_ in H. cbn [f_speed].
  assert (forall ds, NoDup ds -> forall s m s', memrel u s m ->
    fold_res (fun d s =>
      lr <- reconstruct dims rc d u (f_left s) (f_right s) start fin;;
      r <- net_flux dims g fx d (fst lr) (snd lr) (f_out s) (f_temp s) start fin;;
      Ok (mkfstate (fst lr) (snd lr) (snd (fst r)) (fst (fst r))
                 (fun k => if k =? d then snd r else f_speed s k))) ds s = Ok s' ->
    exists m' xs, run_loops size (flat_map (fun d => omp_reconstruct dims rc nx ny nz start fin d ++
        omp_net_flux dims g fx nx ny nz start fin d) ds) m = Ok (m', xs) /\
      memrel u s' m' /\ (forall x, In x xs -> In (fst x) ds) /\
      (forall d, In d ds -> f_speed s' d = top (of_direction d xs)) /\
      (forall d, ~ In d ds -> f_speed s' d = f_speed s d)) as K.
  { intros ds Hn. induction Hn as [|d ds Hd Hn IH]; intros s ms s2 HR Hs.
    - cbn in Hs. injection Hs as <-. exists ms, []. cbn.
      split; [reflexivity|]. split; [exact HR|]. split; [intros x []|]. split; [intros d []|]. auto.
    - cbn [fold_res] in Hs. destruct s as [l0 r0 t0 o0 sp0]. cbn [f_left f_right f_temp f_out f_speed] in *.
      destruct (reconstruct _ _ _ _ _ _ _ _) as [[l' r']| |] eqn:Er; cbn [bind fst snd] in Hs; try discriminate.
      destruct (net_flux _ _ _ _ _ _ _ _ _ _) as [[[o' t'] w]| |] eqn:En; cbn [bind fst snd] in Hs; try discriminate.
      destruct (recon_sim _ _ _ _ _ _ _ _ _ _ HR Er) as (ma & Hra & HRa).
      destruct (flux_sim _ _ _ _ _ _ _ _ _ _ _ HRa En) as (mb & xs & Hrb & HRb & Hw & Hxs).
      destruct (IH (mkfstate l' r' t' o' (fun k => if k =? d then w else sp0 k)) mb s2) as (mc & ys & Hrc & HRc & Hys & Hsp & Hsp');
        [exact HRb|exact Hs|].
      cbn [flat_map]. unfold M_Omp.pr. rewrite !run_loops_app, Hra. cbn [bind fst snd app]. rewrite Hrb. cbn [bind fst snd].
      unfold M_Omp.pr in Hrc. rewrite Hrc. cbn [bind fst snd]. exists mc, (xs ++ ys). split; [reflexivity|]. split; [exact HRc|].
      split; [|split].
      + intros x Hx. apply in_app_iff in Hx. destruct Hx as [Hx|Hx]; [left; symmetry; apply Hxs; exact Hx|right; apply Hys; exact Hx].
      + intros e He. rewrite of_direction_app. destruct (Z.eq_dec e d) as [->|Hne].
        * rewrite (Hsp' d Hd). cbn [f_speed]. rewrite Z.eqb_refl.
          rewrite (of_direction_all d xs Hxs), (of_direction_none d ys), app_nil_r; [exact Hw|].
          intros x Hx E. apply Hd. rewrite <- E. apply Hys; exact Hx.
        * destruct He as [He|He]; [congruence|].
          rewrite (of_direction_none e xs); [|intros x Hx; rewrite (Hxs x Hx); congruence].
          apply Hsp. exact He.
      + intros e He. cbn [In] in He. rewrite Hsp' by tauto. cbn [f_speed].
        destruct (Z.eqb_spec e d); [exfalso; apply He; auto|reflexivity]. }
  destruct (K (zrange 0 dims) (zrange_NoDup _ _) _ _ _ HR1 H) as (m' & xs & Hr & HR' & Hx & Hs1 & Hs2).
  unfold M_Omp.pr in Hr. rewrite Hr. cbn [bind fst snd]. exists m', xs. split; [reflexivity|]. split; [exact HR'|].
  split; [intros x Hx'; apply zrange_In; apply Hx; exact Hx'|].
  split; [intros d Hd; apply Hs1; apply zrange_In; exact Hd|].
  intros d Hd. apply Hs2. rewrite zrange_In. exact Hd.
Qed.

(** Independence of the iterations. *)
Ltac acc_tac := repeat match goal with
  | H : accs (pload _ _ _ _ _ _ _ _) _ _ _ |- _ => apply accs_pload in H; destruct H as [? [(? & ? & ?)|(? & H)]]; subst
  | H : accs (pstore _ _ _ _ _ _ _ _ _) _ _ _ |- _ => apply accs_pstore in H; destruct H as [? [(? & ? & ?)|H]]; subst
  | H : accs (ploads _ _ _ _ _ _) _ _ _ |- _ => apply accs_ploads in H; destruct H as [(? & ?)|(? & H)]; subst
  | H : accs (Ret _) _ _ _ |- _ => inversion H
  end.

Lemma zero_owned : owned nx ny nz (zero_body (V := V) nx ny nz).
Proof.
  exists (fun a => a =? a_out), 0, 0, 0. intros x y z w a i H. rewrite !Z.add_0_r. unfold zero_body in H.
  acc_tac. auto.
Qed.
Lemma recon_owned d : owned nx ny nz (recon_body rc nx ny nz d).
Proof.
  exists (fun a => (a =? a_left) || (a =? a_right)), 0, 0, 0. intros x y z w a i H. rewrite !Z.add_0_r. unfold recon_body in H.
  acc_tac; split; intros E; auto; discriminate.
Qed.
Lemma flux_owned d : owned nx ny nz (flux_body fx nx ny nz d).
Proof.
  exists (fun a => a =? a_temp), 0, 0, 0. intros x y z w a i H. rewrite !Z.add_0_r. unfold flux_body in H.
  destruct fx; acc_tac; split; intros E; auto; discriminate.
Qed.
Lemma difference_owned d : owned nx ny nz (difference_body (V := V) nx ny nz d).
Proof.
  exists (fun a => a =? a_out), (unit_ d 0), (unit_ d 1), (unit_ d 2). intros x y z w a i H. unfold difference_body in H.
  acc_tac; split; intros E; auto; discriminate.
Qed.

Lemma compute_independent : Forall independent (omp_compute_flux dims g fx rc nx ny nz start fin).
Proof.
  unfold omp_compute_flux. apply Forall_app. split.
  - unfold omp_make_zero. eapply par_y_independent, zero_owned.
  - rewrite Forall_forall. intros ps H. apply in_flat_map in H. destruct H as (d & _ & H).
    revert ps H. rewrite <- Forall_forall. apply Forall_app. split.
    + unfold omp_reconstruct. destruct (rec_all rc); [eapply par_x_independent|eapply par_y_independent]; apply recon_owned.
    + unfold omp_net_flux. apply Forall_app. split; eapply par_y_independent; [apply flux_owned|apply difference_owned].
Qed.
End Sim.

(** Reductions with a maximum. *)
Lemma top_ge xs : forall a, (a <= fold_left Rmax xs a)%R /\ forall x, In x xs -> (x <= fold_left Rmax xs a)%R.
Proof.
  induction xs as [|y xs IH]; cbn; intros a; [split; [lra|intros x []]|].
  destruct (IH (Rmax a y)) as [H1 H2]. pose proof (Rmax_l a y). pose proof (Rmax_r a y).
  split; [lra|]. intros x [<-|Hx]; [lra|apply H2; exact Hx].
Qed.
Lemma top_in xs : forall a, fold_left Rmax xs a = a \/ In (fold_left Rmax xs a) xs.
Proof.
  induction xs as [|y xs IH]; cbn; intros a; auto.
  destruct (IH (Rmax a y)) as [E|E]; auto. rewrite E.
  destruct (Rle_dec a y); [rewrite Rmax_right by assumption; auto|rewrite Rmax_left by lra; auto].
Qed.
Lemma reduced_max l x : reduced Rmax l x -> In x l /\ forall y, In y l -> (y <= x)%R.
Proof.
  induction 1 as [x|l1 l2 l x y Hp H1 IH1 H2 IH2].
  - split; [cbn; auto|]. intros y [<-|[]]; lra.
  - destruct IH1 as [I1 M1]. destruct IH2 as [I2 M2]. split.
    + eapply Permutation_in; [apply Permutation_sym; exact Hp|]. apply in_app_iff.
      unfold Rmax. destruct (Rle_dec x y); auto.
    + intros q Hq. apply (Permutation_in _ Hp) in Hq. apply in_app_iff in Hq.
      pose proof (Rmax_l x y). pose proof (Rmax_r x y).
      destruct Hq as [Hq|Hq]; [specialize (M1 _ Hq)|specialize (M2 _ Hq)]; lra.
Qed.
Lemma reduced_top xs w : reduced Rmax (0%R :: xs) w -> w = top xs.
Proof.
  intros H. apply reduced_max in H. destruct H as [Hi Hm]. unfold top.
  destruct (top_ge xs 0) as [H1 H2]. apply Rle_antisym.
  - destruct Hi as [<-|Hi]; auto.
  - destruct (top_in xs 0) as [E|E]; [rewrite E; apply Hm; cbn; auto|apply Hm; cbn; auto].
Qed.
