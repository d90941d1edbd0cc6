(** C74: the TeCNO diffusion operator on a GPU. *)
From Coq Require Import ZArith Reals List Bool Lia Lra.
From Verif Require Import M_Base L_Base M_Vec M_Boundary M_Flux M_Scalar M_Omp L_Omp L_OmpFlux M_Cuda L_Cuda M_Diffusion M_CudaDiffusion
  S_Boundary S_Cuda S_Sum L_Flux L_CudaFlux L_Boundary L_CudaBc L_Writes T_Cuda L_CudaCell.
Import ListNotations.
Open Scope Z_scope.

(** * The data race *)

(** Every equation, matrix and grid with at least four cells (ghost cells included)
    in the first direction: two threads may be about to store the same element of
    entropyVariablesLeft. *)
Theorem C74_race (V : cvars) (bs : basis V) (eq : diff_eq (V := V)) (mx : dmatrix) (E : ivec) dims (m : shared V) :
  1 <= dims -> 4 <= E 0 -> 0 < E 1 -> 0 < E 2 -> E 0 * E 1 * E 2 < 2 ^ 31 ->
  outcomes (fun _ => E 0 * E 1 * E 2) (cuda_diffusion bs eq mx E dims) m UB.
Proof.
  intros Hd H0 H1 H2 HN. unfold cuda_diffusion. rewrite zrange_cons by lia. cbn [flat_map app]. constructor.
  set (n := fun k => E k - 2 * unit_ 0 k).
  assert (n 0 = E 0 - 2) as N0 by reflexivity. assert (n 1 = E 1) as N1 by (unfold n, unit_; cbn; lia).
  assert (n 2 = E 2) as N2 by (unfold n, unit_; cbn; lia).
  assert (good n) as Hn.
  { unfold good. rewrite N0, N1, N2. do 3 (split; [lia|]).
    apply Z.le_lt_trans with (E 0 * E 1 * E 2); [|exact HN]. apply Z.mul_le_mono_nonneg_r; [lia|]. apply Z.mul_le_mono_nonneg_r; lia. }
  unfold cuda_project. fold n. set (body := fun x y z : Z => _ : dpr (V := V)).
  rewrite kernel_good by exact Hn. set (N := n 0 * n 1 * n 2).
  assert (2 <= N) as HN2.
  { unfold N. rewrite N0, N1, N2. pose proof (Z.mul_le_mono_nonneg 2 (E 0 - 2) 1 (E 1)). pose proof (Z.mul_le_mono_nonneg 2 ((E 0 - 2) * E 1) 1 (E 2)). lia. }
  pose proof (threads_ge 512 N ltac:(lia) ltac:(lia)) as Ht.
  rewrite (zrange_cons 0), (zrange_cons (0 + 1)) by lia. cbn [map].
  assert (T : forall t, t = 0 \/ t = 1 -> thread n (unit_ 0) body t = body (t + 1) 0 0).
  { intros t Hi. pose proof (thread_in n (unit_ 0) body t 0 0 Hn ltac:(lia) ltac:(lia) ltac:(lia)) as X.
    replace ((0 * n 1 + 0) * n 0 + t) with t in X by lia. rewrite X. reflexivity. }
  rewrite (T 0), (T (0 + 1)) by auto. set (rest := map _ _).
  set (size := fun _ : Z => E 0 * E 1 * E 2).
  assert (I : forall a i, 0 <= i <= 2 -> inside size a i = true).
  { intros a i Hi. unfold inside, size. pose proof (Z.mul_le_mono_nonneg 4 (E 0) 1 (E 1)). pose proof (Z.mul_le_mono_nonneg 4 (E 0 * E 1) 1 (E 2)).
    destruct (Z.leb_spec 0 i), (Z.ltb_spec i (E 0 * E 1 * E 2)); try lia; reflexivity. }
  assert (P : forall x, at_ E x 0 0 = x) by (intros; unfold at_, index; lia).
  unfold body. cbn [Z.add]. unfold unit_. cbn [Z.eqb Pos.eqb b2z]. rewrite ?Z.sub_0_r, ?P.
  (* threads 0 and 1 load *)
  eapply outcome_ub.
  - eapply psteps_S; [apply (step_load size m [] b_u 1); apply I; lia|]. cbn [app].
    eapply psteps_S; [apply (step_load size m [] b_u 0); apply I; lia|]. cbn [app].
    eapply psteps_S; [refine (step_load size m [_] b_u 2 _ _ _); apply I; lia|]. cbn [app].
    eapply psteps_S; [refine (step_load size m [_] b_u 1 _ _ _); apply I; lia|]. cbn [app].
    eapply psteps_S; [refine (step_store size m [_] b_el 2 _ _ _ _); apply I; lia|]. cbn [app].
    apply psteps_0.
  - eapply (undefined_race size _ [] _ [] _ rest true true b_el 1); reflexivity.
Qed.

(** * What Burgers gets, whatever the order of the threads *)
Lemma burgers_project d s v : mat_t scalar_basis (dcols burgers_diffusion d s) (v : scalar_cvars) = v.
Proof. cbn. change (@Logic.eq R (1 * v + 0)%R v). ring. Qed.
Lemma burgers_weights mx (a : R) : weights mx [a] = [Rabs a].
Proof. destruct mx; cbn; [reflexivity|]. rewrite Rmax_left; [reflexivity|apply Rabs_pos]. Qed.

Section Burgers.
Variables (mx : dmatrix) (E : ivec).
Hypothesis HE : forall k, dir k -> 0 < E k.
Hypothesis HN : E 0 * E 1 * E 2 < 2 ^ 31.
Let N := E 0 * E 1 * E 2.
Let size (_ : Z) : Z := N.
Notation mem := (shared scalar_cvars).

Definition next_ (d : Z) (s : Z) (c : cell) : cell :=
  let '(x, y, z) := c in (x + s * unit_ d 0, y + s * unit_ d 1, z + s * unit_ d 2).
Let at3 (m : mem) (a : Z) (c : cell) : R := m a (place E c).

Lemma box_good d : dir d -> 3 <= E d -> good (fun k => E k - 2 * unit_ d k).
Proof.
  intros Hd H3. pose proof (HE 0 d0) as P0. pose proof (HE 1 d1) as P1. pose proof (HE 2 d2) as P2.
  assert (B : forall k, dir k -> 0 < E k - 2 * unit_ d k <= E k).
  { intros k Hk. pose proof (HE k Hk). unfold unit_. destruct (Z.eqb_spec d k) as [->|]; cbn [b2z]; lia. }
  pose proof (B 0 d0). pose proof (B 1 d1). pose proof (B 2 d2). unfold good. do 3 (split; [lia|]).
  apply Z.le_lt_trans with (2 := HN). apply Z.mul_le_mono_nonneg; [apply Z.mul_nonneg_nonneg; lia| |lia|lia]. apply Z.mul_le_mono_nonneg; lia.
Qed.

(** Cells of the launches of direction [d]. *)
Lemma box_cell d c : inkernel (fun k => E k - 2 * unit_ d k) (unit_ d) c <->
  (let '(x, y, z) := c in unit_ d 0 <= x < E 0 - unit_ d 0 /\ unit_ d 1 <= y < E 1 - unit_ d 1 /\ unit_ d 2 <= z < E 2 - unit_ d 2).
Proof. destruct c as [[x y] z]. cbn. lia. Qed.
Lemma unit_range d k : 0 <= unit_ d k <= 1.
Proof. unfold unit_. destruct (d =? k); cbn; lia. Qed.
Lemma box_in d c s : dir d -> inkernel (fun k => E k - 2 * unit_ d k) (unit_ d) c -> -1 <= s <= 1 -> incell E (next_ d s c).
Proof.
  intros Hd H Hs. destruct c as [[x y] z]. apply box_cell in H. unfold next_, incell.
  pose proof (unit_range d 0). pose proof (unit_range d 1). pose proof (unit_range d 2). nia.
Qed.
Lemma next_0 d c : next_ d 0 c = c.
Proof. destruct c as [[x y] z]. unfold next_. f_equal; [f_equal|]; lia. Qed.
Lemma next_place d s x y z : place E (next_ d s (x, y, z)) = at_ E (x + s * unit_ d 0) (y + s * unit_ d 1) (z + s * unit_ d 2).
Proof. unfold place, next_, at_, index. lia. Qed.

(** The projection. *)
Lemma project_outcome d (m : mem) m' xs : dir d -> 3 <= E d ->
  outcome size (cuda_project scalar_basis burgers_diffusion E d) m (Ok (m', xs)) ->
  (forall a i, a <> b_el -> m' a i = m a i) /\
  (forall c, incell E c -> getd d c < E d - 1 -> at3 m' b_el c = entropy_var (at3 m b_u c)).
Proof.
  intros Hd H3 Ho. unfold cuda_project in Ho. set (body := fun x y z : Z => _) in Ho.
  set (n := fun k => E k - 2 * unit_ d k) in *.
  assert (B : forall c, writes m (atcell body c) =
    [(b_el, place E c, entropy_var (at3 m b_u c)); (b_el, place E (next_ d (-1) c), entropy_var (at3 m b_u (next_ d (-1) c)))]).
  { intros [[x y] z]. cbn [atcell]. unfold body. cbn [writes]. rewrite !burgers_project. unfold at3, view_right.
    rewrite next_place. replace (place E (x, y, z)) with (at_ E x y z) by (unfold place, at_, index; lia).
    replace (x - unit_ d 0) with (x + -1 * unit_ d 0) by lia. replace (y - unit_ d 1) with (y + -1 * unit_ d 1) by lia.
    replace (z - unit_ d 2) with (z + -1 * unit_ d 2) by lia. reflexivity. }
  destruct (kernel_outcome size m 512 n (unit_ d) body m' xs) as (G1 & G2); try lia; auto.
  - apply box_good; assumption.
  - intros c Hc.
    assert (forall i, ~ exists c' v, inkernel n (unit_ d) c' /\ c' <> c /\ In (b_u, i, v) (writes m (atcell body c'))) as R1.
    { intros i (c' & v & _ & _ & Hv). rewrite B in Hv. destruct Hv as [Hv|[Hv|[]]]; discriminate Hv. }
    destruct c as [[x y] z]. cbn [atcell]. unfold body at 2. cbn [sep]. split; [apply R1|]. split; [apply R1|exact I].
  - intros c c' a i v v' Hc Hc' H H'. rewrite B in H, H'.
    assert (W : forall c w, inkernel n (unit_ d) c ->
      In (a, i, w) [(b_el, place E c, entropy_var (at3 m b_u c)); (b_el, place E (next_ d (-1) c), entropy_var (at3 m b_u (next_ d (-1) c)))] ->
      w = entropy_var (m b_u i)).
    { intros c1 w _ [Hw|[Hw|[]]]; injection Hw as _ <- <-; reflexivity. }
    rewrite (W c v Hc H), (W c' v' Hc' H'). reflexivity.
  - split.
    + intros a i Ha. apply G2. intros c v _ Hv. rewrite B in Hv. destruct Hv as [Hv|[Hv|[]]]; injection Hv as <- _ _; contradiction.
    + intros c Hc Hl.
      (* stored as left neighbour *)
      assert (inkernel n (unit_ d) c \/ inkernel n (unit_ d) (next_ d 1 c)) as [K|K].
      { destruct c as [[x y] z]. unfold n. rewrite (box_cell d (x, y, z)), (box_cell d (next_ d 1 (x, y, z))). unfold next_, incell, getd in *.
        unfold unit_. destruct Hd as [->|[->| ->]]; cbn [Z.eqb Pos.eqb b2z] in *; lia. }
      * apply (G1 c); [exact K|]. rewrite B. cbn. auto.
      * apply (G1 (next_ d 1 c)); [exact K|]. rewrite B. right. left.
        replace (next_ d (-1) (next_ d 1 c)) with c; [reflexivity|]. destruct c as [[x y] z]. unfold next_. f_equal; [f_equal|]; lia.
Qed.

(** The term a thread adds. *)
Definition gpu_face (m : mem) (d : Z) (s : R) (l r : cell) : R :=
  (- (1 / 2) * (Rabs s * (at3 m b_right l + -1 * at3 m b_left r)))%R.
Lemma multiply_outcome d (m : mem) m' xs : dir d -> 3 <= E d ->
  outcome size (cuda_multiply scalar_basis burgers_diffusion mx E d) m (Ok (m', xs)) ->
  (forall a i, a <> b_out -> m' a i = m a i) /\
  (forall c, inkernel (fun k => E k - 2 * unit_ d k) (unit_ d) c ->
     let s := (1 / 2 * (at3 m b_u (next_ d 1 c) + at3 m b_u (next_ d (-1) c)))%R in
     at3 m' b_out c = (at3 m b_out c + (gpu_face m d s c (next_ d 1 c) + -1 * gpu_face m d s (next_ d (-1) c) c))%R).
Proof.
  intros Hd H3 Ho. unfold cuda_multiply in Ho. set (body := fun x y z : Z => _) in Ho.
  set (n := fun k => E k - 2 * unit_ d k) in *.
  pose (val := fun c => let s := (1 / 2 * (at3 m b_u (next_ d 1 c) + at3 m b_u (next_ d (-1) c)))%R in
     (at3 m b_out c + (gpu_face m d s c (next_ d 1 c) + -1 * gpu_face m d s (next_ d (-1) c) c))%R).
  assert (B : forall c, writes m (atcell body c) = [(b_out, place E c, val c)]).
  { intros [[x y] z]. cbn [atcell]. unfold body, cuda_face. cbn [writes burgers_diffusion dcols deigs]. rewrite !burgers_weights. unfold val, gpu_face, at3.
    rewrite !next_place. replace (place E (x, y, z)) with (at_ E x y z) by (unfold place, at_, index; lia).
    replace (x - unit_ d 0) with (x + -1 * unit_ d 0) by lia. replace (y - unit_ d 1) with (y + -1 * unit_ d 1) by lia.
    replace (z - unit_ d 2) with (z + -1 * unit_ d 2) by lia.
    replace (x + 1 * unit_ d 0) with (x + unit_ d 0) by lia. replace (y + 1 * unit_ d 1) with (y + unit_ d 1) by lia.
    replace (z + 1 * unit_ d 2) with (z + unit_ d 2) by lia.
    apply f_equal2; [|reflexivity]. apply f_equal. cbn. unfold average. cbn. ring. }
  assert (Nout : forall c a i, a <> b_out -> ~ exists c' v, inkernel n (unit_ d) c' /\ c' <> c /\ In (a, i, v) (writes m (atcell body c'))).
  { intros c a i Ha (c' & v & _ & _ & Hv). rewrite B in Hv. destruct Hv as [Hv|[]]. injection Hv as <- _ _. contradiction. }
  assert (inc : forall c, inkernel n (unit_ d) c -> incell E c).
  { intros c Hc. rewrite <- (next_0 d c). apply box_in; [exact Hd|exact Hc|lia]. }
  destruct (kernel_outcome size m 512 n (unit_ d) body m' xs) as (G1 & G2); try lia; auto.
  - apply box_good; assumption.
  - intros c Hc.
    assert (Own : ~ exists c' v, inkernel n (unit_ d) c' /\ c' <> c /\ In (b_out, place E c, v) (writes m (atcell body c'))).
    { intros (c' & v & Hc' & Ne & Hv). rewrite B in Hv. destruct Hv as [Hv|[]]. injection Hv as Hp _. apply Ne.
      apply (place_inj E c' c); auto. }
    pose proof (Nout c) as Nc. destruct c as [[x y] z]. replace (place E (x, y, z)) with (at_ E x y z) in Own by (unfold place, at_, index; lia).
    cbn [atcell]. unfold body at 2. unfold cuda_face. cbn [sep].
    repeat (split; [first [apply Nc; discriminate|exact Own]|]). exact I.
  - intros c c' a i v v' Hc Hc' H H'. rewrite B in H, H'. destruct H as [H|[]], H' as [H'|[]].
    injection H as Ea Ei Ev. injection H' as _ Ei' Ev'. rewrite <- Ev, <- Ev'. f_equal. apply (place_inj E c c'); auto. congruence.
  - split.
    + intros a i Ha. apply G2. intros c v _ Hv. rewrite B in Hv. destruct Hv as [Hv|[]]. injection Hv as <- _ _. contradiction.
    + intros c Hc. unfold at3 at 1. apply (G1 c); [exact Hc|]. rewrite B. cbn. auto.
Qed.

(** Half the dissipation of the right face with the wrong state, and nothing of the
    left face. *)
Definition gpu_term (u : cell -> R) (d : Z) (c : cell) : R :=
  (1 / 2 * (Rabs (1 / 2 * (u (next_ d 1 c) + u (next_ d (-1) c))) * (entropy_var (u (next_ d 1 c)) - entropy_var (u c))))%R.

Definition deep (d : Z) (c : cell) : Prop := incell E c /\ 1 <= getd d c <= E d - 3.
Lemma direction d (m m' : mem) rest xs : dir d -> 3 <= E d -> (forall i j, 0 <= i < N -> 0 <= j < N -> m b_er i = m b_er j) ->
  outcomes size (cuda_project scalar_basis burgers_diffusion E d :: cuda_tecno_copy E ++ cuda_multiply scalar_basis burgers_diffusion mx E d :: rest) m
    (Ok (m', xs)) ->
  exists m1 ys, outcomes size rest m1 (Ok (m', ys)) /\
    (forall i, m1 b_u i = m b_u i) /\ (forall i, m1 b_er i = m b_er i) /\
    (forall c, deep d c -> at3 m1 b_out c = (at3 m b_out c + gpu_term (at3 m b_u) d c)%R).
Proof.
  intros Hd H3 He Ho. unfold cuda_tecno_copy in Ho. cbn [app] in Ho.
  inversion Ho as [| | |? ? ? m1 x1 ? ? O1 Ho1]; subst. clear Ho.
  inversion Ho1 as [| | |? ? ? m2 x2 ? ? O2 Ho2]; subst. clear Ho1.
  inversion Ho2 as [| | |? ? ? m3 x3 ? ? O3 Ho3]; subst. clear Ho2.
  inversion Ho3 as [| | |? ? ? m4 x4 ? ? O4 Ho4]; subst. clear Ho3.
  destruct (project_outcome d m m1 x1 Hd H3 O1) as (P1 & P2).
  pose proof (memcpy_outcome size m1 b_left b_el N m2 x2 ltac:(discriminate) O2) as C1.
  pose proof (memcpy_outcome size m2 b_right b_er N m3 x3 ltac:(discriminate) O3) as C2.
  destruct (multiply_outcome d m3 m4 x4 Hd H3 O4) as (M1 & M2).
  assert (K : forall a i, a <> b_left -> a <> b_right -> m3 a i = m1 a i).
  { intros a i N1 N2. apply Z.eqb_neq in N1. apply Z.eqb_neq in N2. rewrite C2, N2. cbn [andb]. rewrite C1, N1. reflexivity. }
  exists m4. eexists. split; [exact Ho4|]. split; [|split].
  - intros i. rewrite M1, K, P1 by discriminate. reflexivity.
  - intros i. rewrite M1, K, P1 by discriminate. reflexivity.
  - intros c (Hc & Hl).
    assert (inkernel (fun k => E k - 2 * unit_ d k) (unit_ d) c) as Kc.
    { apply box_cell. destruct c as [[x y] z]. unfold incell, getd in *. unfold unit_.
      destruct Hd as [->|[->| ->]]; cbn [Z.eqb Pos.eqb b2z] in *; lia. }
    pose proof (box_in d c 1 Hd Kc ltac:(lia)) as Cr. pose proof (box_in d c (-1) Hd Kc ltac:(lia)) as Cl.
    assert (Pl : forall c, incell E c -> 0 <= place E c < N) by (intros; apply place_inside; assumption).
    rewrite M2 by exact Kc. cbv zeta.
    assert (U : forall c, at3 m3 b_u c = at3 m b_u c) by (intros; unfold at3; rewrite K, P1 by discriminate; reflexivity).
    assert (O : forall c, at3 m3 b_out c = at3 m b_out c) by (intros; unfold at3; rewrite K, P1 by discriminate; reflexivity).
    assert (Rt : forall c, incell E c -> at3 m3 b_right c = at3 m b_er c).
    { intros c1 H1. unfold at3. rewrite C2. specialize (Pl _ H1). rewrite (proj2 (Z.leb_le 0 _)), (proj2 (Z.ltb_lt _ N)) by lia.
      cbn [Z.eqb Pos.eqb andb b_right]. rewrite C1. cbn [Z.eqb Pos.eqb andb b_er b_left]. rewrite P1 by discriminate. reflexivity. }
    assert (Lt : forall c, incell E c -> getd d c < E d - 1 -> at3 m3 b_left c = entropy_var (at3 m b_u c)).
    { intros c1 H1 H2. unfold at3 at 1. rewrite C2. cbn [Z.eqb Pos.eqb andb b_right b_left]. rewrite C1.
      specialize (Pl _ H1). rewrite (proj2 (Z.leb_le 0 _)), (proj2 (Z.ltb_lt _ N)) by lia. cbn [Z.eqb Pos.eqb andb b_left].
      apply P2; assumption. }
    unfold gpu_face. rewrite !U, O, !Rt by assumption.
    rewrite (Lt (next_ d 1 c)), (Lt c) by (try assumption; destruct c as [[x y] z]; unfold getd, next_ in *; unfold unit_;
      destruct Hd as [->|[->| ->]]; cbn [Z.eqb Pos.eqb b2z] in *; lia).
    assert (at3 m b_er (next_ d (-1) c) = at3 m b_er c) as -> by (apply He; apply Pl; assumption).
    unfold gpu_term. ring.
Qed.

Lemma directions ds : (forall d, In d ds -> dir d /\ 3 <= E d) -> forall (m m' : mem) xs,
  (forall i j, 0 <= i < N -> 0 <= j < N -> m b_er i = m b_er j) ->
  outcomes size (flat_map (fun d => cuda_project scalar_basis burgers_diffusion E d :: cuda_tecno_copy E ++
      [cuda_multiply scalar_basis burgers_diffusion mx E d]) ds) m (Ok (m', xs)) ->
  (forall i, m' b_u i = m b_u i) /\
  (forall c, (forall d, In d ds -> deep d c) ->
     at3 m' b_out c = (at3 m b_out c + fold_right Rplus 0 (map (fun d => gpu_term (at3 m b_u) d c) ds))%R).
Proof.
  induction ds as [|d ds IH]; intros Hds m m' xs He Ho.
  - inversion Ho; subst. split; [reflexivity|]. intros c _. cbn. ring.
  - cbn [flat_map] in Ho. rewrite <- app_comm_cons, <- app_assoc in Ho. cbn [app] in Ho.
    destruct (Hds d (or_introl eq_refl)) as (Hd & H3).
    destruct (direction d m m' _ xs Hd H3 He Ho) as (m1 & ys & O1 & U & Er & W).
    destruct (IH (fun e H => Hds e (or_intror H)) m1 m' ys) as (U' & W').
    + intros i j Hi Hj. rewrite !Er. apply He; assumption.
    + exact O1.
    + split; [intros i; rewrite U'; apply U|]. intros c Hc. rewrite W', W by (intros; apply Hc; cbn; auto). cbn [map fold_right].
      assert (E1 : map (fun d => gpu_term (at3 m1 b_u) d c) ds = map (fun d => gpu_term (at3 m b_u) d c) ds).
      { apply map_ext. intros e. unfold gpu_term, at3. rewrite !U. reflexivity. }
      rewrite E1. ring.
Qed.
End Burgers.

(** Burgers with the Roe or the Rusanov matrix: every finished run, whatever the
    order of the threads, adds this to the interior cells.  entropyVariablesRight is
    never written; all its elements are equal (zero) from the allocation
    (CudaMemory.cpp line 73). *)
Theorem C74_burgers_any_order (mx : dmatrix) dims g nx ny nz (m m' : shared scalar_cvars) xs :
  1 <= dims <= 3 -> 2 <= g -> 0 < nx -> 0 < ny -> 0 < nz ->
  let E := extents dims g nx ny nz in
  E 0 * E 1 * E 2 < 2 ^ 31 ->
  (forall i j, 0 <= i < E 0 * E 1 * E 2 -> 0 <= j < E 0 * E 1 * E 2 -> m b_er i = m b_er j) ->
  outcomes (fun _ => E 0 * E 1 * E 2) (cuda_diffusion scalar_basis burgers_diffusion mx E dims) m (Ok (m', xs)) ->
  let u c := m b_u (place E c) in
  forall c, interior dims g nx ny nz c ->
    m' b_out (place E c) =
    (m b_out (place E c) +
     fold_right Rplus 0 (map (fun d =>
       1 / 2 * (Rabs (1 / 2 * (u (next_ d 1 c) + u (next_ d (-1) c))) * (entropy_var (u (next_ d 1 c)) - entropy_var (u c))))
       (zrange 0 dims)))%R.
Proof.
  intros Hd Hg Hx Hy Hz E HN He Ho u c Hc.
  assert (HE : forall k, dir k -> 0 < E k).
  { intros k Hk. unfold E, extents. destruct Hk as [->|[->| ->]]; cbn [Z.eqb Pos.eqb]; destruct (1 <? dims), (2 <? dims); lia. }
  assert (HD : forall d, In d (zrange 0 dims) -> dir d /\ 3 <= E d).
  { intros d Hi. apply zrange_In in Hi. assert (d = 0 \/ d = 1 \/ d = 2) as D by lia. split; [exact D|]. unfold E, extents.
    destruct D as [->|[->| ->]]; cbn [Z.eqb Pos.eqb]; destruct (Z.ltb_spec 1 dims), (Z.ltb_spec 2 dims); lia. }
  destruct (directions mx E HE HN (zrange 0 dims) HD m m' xs He Ho) as (_ & W). apply W.
  intros d Hi. apply zrange_In in Hi. unfold deep. destruct c as [[x y] z]. unfold interior, interior1, incell, getd in *.
  unfold E, extents. cbn [Z.eqb Pos.eqb]. assert (d = 0 \/ d = 1 \/ d = 2) as D by lia.
  destruct D as [->|[->| ->]]; cbn [Z.eqb Pos.eqb]; destruct (Z.ltb_spec 1 dims), (Z.ltb_spec 2 dims); lia.
Qed.

(** Threads one after the other give a finished run, for every equation. *)
Theorem C74_finishes (V : cvars) (bs : basis V) eq (mx : dmatrix) dims g nx ny nz (m : shared V) :
  1 <= dims <= 3 -> 1 <= g -> 0 < nx -> 0 < ny -> 0 < nz ->
  let E := extents dims g nx ny nz in
  E 0 * E 1 * E 2 < 2 ^ 31 ->
  exists m' xs, outcomes (fun _ => E 0 * E 1 * E 2) (cuda_diffusion bs eq mx E dims) m (Ok (m', xs)).
Proof.
  intros Hd Hg Hx Hy Hz E HN.
  assert (HE : forall k, dir k -> 0 < E k).
  { intros k Hk. unfold E, extents. destruct Hk as [->|[->| ->]]; cbn [Z.eqb Pos.eqb]; destruct (1 <? dims), (2 <? dims); lia. }
  set (size := fun _ : Z => E 0 * E 1 * E 2).
  enough (exists r, run_loops size (cuda_diffusion bs eq mx E dims) m = Ok r) as ((m' & xs) & R) by (exists m', xs; apply run_outcomes; exact R).
  apply fine_loops. unfold cuda_diffusion. apply Forall_forall. intros ps Hp. apply in_flat_map in Hp. destruct Hp as (d & Hi & Hp).
  apply zrange_In in Hi.
  assert (dir d) as Dd by (unfold dir; lia).
  assert (3 <= E d) as H3.
  { unfold E, extents. destruct Dd as [D|[D|D]]; rewrite D in *; cbn [Z.eqb Pos.eqb]; destruct (Z.ltb_spec 1 dims), (Z.ltb_spec 2 dims); lia. }
  assert (I : forall a c, incell E c -> inside size a (place E c) = true).
  { intros a c Hc. apply place_inside in Hc. unfold inside, size. destruct (Z.leb_spec 0 (place E c)), (Z.ltb_spec (place E c) (E 0 * E 1 * E 2)); try lia; reflexivity. }
  assert (J : forall a x y z s, inkernel (fun k => E k - 2 * unit_ d k) (unit_ d) (x, y, z) -> -1 <= s <= 1 ->
    inside size a (at_ E (x + s * unit_ d 0) (y + s * unit_ d 1) (z + s * unit_ d 2)) = true).
  { intros a x y z s Hc Hs. rewrite <- next_place. apply I. apply box_in; assumption. }
  unfold cuda_tecno_copy in Hp. cbn [app In] in Hp. destruct Hp as [<-|[<-|[<-|[<-|[]]]]].
  - apply fine_kernel; [apply box_good; assumption|]. intros [[x y] z] Hc.
    pose proof (fun a => J a x y z 0 Hc ltac:(lia)) as J0. pose proof (fun a => J a x y z (-1) Hc ltac:(lia)) as J1.
    replace (x + 0 * unit_ d 0) with x in J0 by lia. replace (y + 0 * unit_ d 1) with y in J0 by lia. replace (z + 0 * unit_ d 2) with z in J0 by lia.
    replace (x + -1 * unit_ d 0) with (x - unit_ d 0) in J1 by lia. replace (y + -1 * unit_ d 1) with (y - unit_ d 1) in J1 by lia.
    replace (z + -1 * unit_ d 2) with (z - unit_ d 2) in J1 by lia.
    cbn [atcell fine]. repeat first [split | intros ? | apply J0 | apply J1].
  - apply fine_memcpy; unfold size; lia.
  - apply fine_memcpy; unfold size; lia.
  - apply fine_kernel; [apply box_good; assumption|]. intros [[x y] z] Hc.
    pose proof (fun a => J a x y z 0 Hc ltac:(lia)) as J0. pose proof (fun a => J a x y z (-1) Hc ltac:(lia)) as J1.
    pose proof (fun a => J a x y z 1 Hc ltac:(lia)) as J2.
    replace (x + 0 * unit_ d 0) with x in J0 by lia. replace (y + 0 * unit_ d 1) with y in J0 by lia. replace (z + 0 * unit_ d 2) with z in J0 by lia.
    replace (x + -1 * unit_ d 0) with (x - unit_ d 0) in J1 by lia. replace (y + -1 * unit_ d 1) with (y - unit_ d 1) in J1 by lia.
    replace (z + -1 * unit_ d 2) with (z - unit_ d 2) in J1 by lia.
    replace (x + 1 * unit_ d 0) with (x + unit_ d 0) in J2 by lia. replace (y + 1 * unit_ d 1) with (y + unit_ d 1) in J2 by lia.
    replace (z + 1 * unit_ d 2) with (z + unit_ d 2) in J2 by lia.
    unfold cuda_face. cbn [atcell fine]. repeat first [split | intros ? | apply J0 | apply J1 | apply J2].
Qed.

(** * The property *)

(** In every finished run the operator sums to zero over a periodic grid, as it does
    on the CPU (C38_sums_to_zero_partial). *)
Definition gpu_conserves : Prop :=
  forall (mx : dmatrix) g nx (m m' : shared scalar_cvars) xs,
  2 <= g -> g <= nx ->
  let E := extents 1 g nx 1 1 in
  nx + 2 * g < 2 ^ 31 ->
  (forall x, 0 <= x < nx + 2 * g -> m b_u x = m b_u (periodic1 g nx x)) ->
  (forall i, m b_er i = 0%R) ->
  outcomes (fun _ => E 0 * E 1 * E 2) (cuda_diffusion scalar_basis burgers_diffusion mx E 1) m (Ok (m', xs)) ->
  sumz g (g + nx) (fun x => m' b_out x - m b_out x)%R = 0%R.

(** 1, 1, 3/2 in three cells: the sum is 1/6. *)
Definition three_u (i : Z) : R := if (i - 2) mod 3 =? 2 then (3 / 2)%R else 1%R.
Definition three : shared scalar_cvars := fun a i => if a =? b_u then three_u i else 0%R.
Lemma three_sum mx (m' : shared scalar_cvars) xs :
  let E := extents 1 2 3 1 1 in
  outcomes (fun _ => E 0 * E 1 * E 2) (cuda_diffusion scalar_basis burgers_diffusion mx E 1) three (Ok (m', xs)) ->
  sumz 2 5 (fun x => m' b_out x - three b_out x)%R = (1 / 6)%R.
Proof.
  intros E Ho.
  pose proof (C74_burgers_any_order mx 1 2 3 1 1 three m' xs ltac:(lia) ltac:(lia) ltac:(lia) ltac:(lia) ltac:(lia) eq_refl
    (fun _ _ _ _ => eq_refl) Ho) as W. cbv zeta in W.
  assert (V1 : entropy_var 1 = 0%R) by (unfold entropy_var; field).
  assert (V2 : entropy_var (3 / 2) = (4 / 3)%R) by (unfold entropy_var; field).
  assert (X : forall x, x = 2 \/ x = 3 \/ x = 4 -> m' b_out x = (if x =? 3 then 5 / 6 else if x =? 4 then - (2 / 3) else 0)%R).
  { intros x Hx. specialize (W (x, 0, 0)). assert (interior 1 2 3 1 1 (x, 0, 0)) as Hi by (cbn; unfold interior1; lia).
    specialize (W Hi). change (extents 1 2 3 1 1) with E in W. replace (place E (x, 0, 0)) with x in W by (unfold place; lia). rewrite W.
    change (zrange 0 1) with [0]. cbn [map fold_right].
    unfold next_, place, unit_, E, extents. cbn [Z.eqb Pos.eqb b2z].
    destruct Hx as [->|[->| ->]]; unfold three, three_u;
      lazy -[Rplus Rmult Ropp Rinv Rdiv Rminus IZR Rabs entropy_var cv scalar_cvars]; rewrite ?V1, ?V2, Rabs_pos_eq by lra;
      match goal with |- @Logic.eq _ ?a ?b => change (@Logic.eq R a b) end; lra. }
  unfold sumz. change (zrange 2 5) with [2; 3; 4]. cbn [map fold_right]. rewrite !X by auto. cbn. unfold three. cbn. lra.
Qed.
Theorem C74_conserves_refuted : ~ gpu_conserves.
Proof.
  intros H. destruct (C74_finishes scalar_cvars scalar_basis burgers_diffusion Roe 1 2 3 1 1 three) as (m' & xs & Ho); try lia; [reflexivity|].
  specialize (H Roe 2 3 three m' xs ltac:(lia) ltac:(lia) eq_refl).
  assert (S : sumz 2 (2 + 3) (fun x => m' b_out x - three b_out x)%R = 0%R).
  { apply H; [|reflexivity|exact Ho]. intros x Hx. cbn in Hx. unfold three. cbn.
    assert (x = 0 \/ x = 1 \/ x = 2 \/ x = 3 \/ x = 4 \/ x = 5 \/ x = 6) as C by lia.
    destruct C as [->|[->|[->|[->|[->|[->| ->]]]]]]; reflexivity. }
  pose proof (three_sum Roe m' xs Ho) as T. change (2 + 3) with 5 in S. lra.
Qed.

(** No data race, the other half of the property. *)
Definition gpu_no_race : Prop :=
  forall (V : cvars) (bs : basis V) eq mx dims g nx ny nz (m : shared V),
  1 <= dims <= 3 -> 1 <= g -> 0 < nx -> 0 < ny -> 0 < nz ->
  let E := extents dims g nx ny nz in
  E 0 * E 1 * E 2 < 2 ^ 31 ->
  ~ outcomes (fun _ => E 0 * E 1 * E 2) (cuda_diffusion bs eq mx E dims) m UB.
Theorem C74_race_refuted : ~ gpu_no_race.
Proof.
  intros H. apply (H scalar_cvars scalar_basis burgers_diffusion Roe 1 1 2 1 1 three); try lia; [reflexivity|].
  apply C74_race; try reflexivity; cbn; lia.
Qed.

Print Assumptions C74_race.
Print Assumptions C74_burgers_any_order.
Print Assumptions C74_finishes.
Print Assumptions C74_conserves_refuted.
Print Assumptions C74_race_refuted.

Example C74_nonvacuous : exists m' xs,
  outcomes (fun _ => 7) (cuda_diffusion scalar_basis burgers_diffusion RusanovM (extents 1 2 3 1 1) 1) three (Ok (m', xs)) /\
  sumz 2 5 (fun x => m' b_out x - three b_out x)%R = (1 / 6)%R.
Proof.
  destruct (C74_finishes scalar_cvars scalar_basis burgers_diffusion RusanovM 1 2 3 1 1 three) as (m' & xs & Ho); try lia; [reflexivity|].
  exists m', xs. split; [exact Ho|]. exact (three_sum RusanovM m' xs Ho).
Qed.
