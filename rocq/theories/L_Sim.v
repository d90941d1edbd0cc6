(** One step of the simulator is one textbook Runge-Kutta step. *)
From Coq Require Import ZArith Reals List Bool Lia Lra.
From Verif Require Import M_Base M_Vec M_Boundary M_Flux M_Sim S_Sim L_Base L_Flux.
Import ListNotations.
Open Scope Z_scope.

Lemma int32_small z : 0 <= z < 2 ^ 31 -> int32 z = z.
Proof.
  intros H. unfold int32. rewrite Z.mod_small; [ring|].
  change (2 ^ 31) with 2147483648 in *. change (2 ^ 32) with 4294967296. lia.
Qed.

Lemma index_size {A} (v : vol A) x y z : inr v (x, y, z) ->
  0 <= index (vnx v) (vny v) x y z < vsize v.
Proof.
  intros (H1 & H2 & H3). unfold index, vsize.
  assert (0 <= z * vnx v * vny v) by (apply Z.mul_nonneg_nonneg; [apply Z.mul_nonneg_nonneg|]; lia).
  assert (0 <= y * vnx v) by (apply Z.mul_nonneg_nonneg; lia).
  split; [lia|].
  assert (z * (vnx v * vny v) + (y * vnx v + x) < (vnz v) * (vnx v * vny v)).
  { assert (y * vnx v + x < vnx v * vny v).
    { assert ((y + 1) * vnx v <= vny v * vnx v) by (apply Z.mul_le_mono_nonneg_r; lia). lia. }
    assert ((z + 1) * (vnx v * vny v) <= vnz v * (vnx v * vny v))
      by (apply Z.mul_le_mono_nonneg_r; nia). lia. }
  lia.
Qed.

Lemma vsize_same {A B} (v : vol A) (w : vol B) : same_dims v w -> vsize v = vsize w.
Proof. intros (H1 & H2 & H3). unfold vsize. now rewrite H1, H2, H3. Qed.

Section Ops.
Context {V : cvars}.
Variable ref : vol V.
Hypothesis Hsize : vsize ref < 2 ^ 31.
Notation same := (same_dims ref).

Lemma ref_inr_size c : inr ref c -> 0 <= vsize ref.
Proof. destruct c as [[x y] z]. intros H. pose proof (index_size ref x y z H). lia. Qed.

Lemma scale_ok s (v : vol V) c : same v -> inr ref c -> vget (vol_scale s v) c = vscal s (vget v c).
Proof.
  intros D H. destruct c as [[x y] z].
  assert (Hv : inr v (x, y, z)) by (eapply inr_same; eauto).
  pose proof (index_size v x y z Hv) as B. pose proof (vsize_same _ _ D) as E.
  unfold vget, vol_scale; cbn [vnx vny vdat]. rewrite int32_small by lia.
  destruct (Z.ltb_spec (index (vnx v) (vny v) x y z) (vsize v)); [reflexivity|lia].
Qed.
Lemma scale_same s (v : vol V) : same v -> same (vol_scale s v).
Proof. intros D. exact D. Qed.

Lemma add_ok (v w : vol V) : same v -> same w -> 0 <= vsize ref ->
  exists o, vol_add v w = Ok o /\ same o /\
    forall c, inr ref c -> vget o c = vadd (vget v c) (vget w c).
Proof.
  intros D D' P. pose proof (vsize_same _ _ D) as E. pose proof (vsize_same _ _ D') as E'.
  unfold vol_add. rewrite int32_small by lia.
  destruct (Z.leb_spec (vsize v) (vsize w)); [|lia].
  eexists. split; [reflexivity|]. split; [exact D|].
  intros [[x y] z] Hc. unfold vget; cbn [vnx vny vdat].
  assert (Hv : inr v (x, y, z)) by (eapply inr_same; eauto).
  pose proof (index_size v x y z Hv) as B.
  destruct (Z.ltb_spec (index (vnx v) (vny v) x y z) (vsize v)); [|lia].
  destruct D as (D1 & D2 & _), D' as (D1' & D2' & _). now rewrite <- D1, <- D2, <- D1', <- D2'.
Qed.

Lemma lincomb_ok (v : vol V) a1 a2 v2 a3 v3 a4 v4 a5 v5 :
  same v -> same v2 -> same v3 -> same v4 -> same v5 ->
  exists o, vol_lincomb v a1 a2 v2 a3 v3 a4 v4 a5 v5 = Ok o /\ same o /\
    forall c, inr ref c -> vget o c =
      vadd (vadd (vadd (vadd (vscal a1 (vget v c)) (vscal a2 (vget v2 c))) (vscal a3 (vget v3 c)))
        (vscal a4 (vget v4 c))) (vscal a5 (vget v5 c)).
Proof.
  intros D D2 D3 D4 D5. unfold vol_lincomb.
  rewrite <- (vsize_same _ _ D), <- (vsize_same _ _ D2), <- (vsize_same _ _ D3),
    <- (vsize_same _ _ D4), <- (vsize_same _ _ D5). rewrite Z.eqb_refl. cbn [andb].
  eexists. split; [reflexivity|]. split; [exact D|].
  intros [[x y] z] Hc. unfold vget; cbn [vnx vny vdat].
  destruct D as (A1 & B1 & _), D2 as (A2 & B2 & _), D3 as (A3 & B3 & _), D4 as (A4 & B4 & _),
    D5 as (A5 & B5 & _).
  now rewrite <- A1, <- B1, <- A2, <- B2, <- A3, <- B3, <- A4, <- B4, <- A5, <- B5.
Qed.

(** The combination of a stage at one cell. *)
Definition comb (it : integrator) (k : nat) (s : R) (f : nat -> V) (F : V) : V :=
  match it, k with
  | ForwardEuler, _ => vadd (vscal s F) (f O)
  | RungeKutta2, 1%nat => vscal (1 / 2) (vadd (vadd (vscal s F) (f 1%nat)) (f O))
  | RungeKutta3, 1%nat =>
      vscal (3 / 4) (vadd (vscal (1 / 3) (vadd (vscal s F) (f 1%nat))) (f O))
  | RungeKutta3, 2%nat =>
      vscal (1 / 3) (vadd (vscal 2 (vadd (vscal s F) (f 2%nat))) (f O))
  | RungeKutta4, 0%nat | RungeKutta4, 1%nat => vadd (vscal (1 / 2) (vscal s F)) (f O)
  | RungeKutta4, 2%nat => vadd (vscal s F) (f O)
  | RungeKutta4, 3%nat =>
      vadd (vadd (vadd (vadd (vscal ((1 / 6) * s) F) (vscal (1 / 3) (f 1%nat)))
        (vscal (2 / 3) (f 2%nat))) (vscal (1 / 3) (f 3%nat))) (vscal (- 1 / 3) (f O))
  | _, _ => vadd (vscal s F) (f k)
  end%R.

Lemma vat_nth {A} (l : list A) k d : (k < length l)%nat -> vat l k = Ok (nth k l d).
Proof. intros H. unfold vat. rewrite (nth_error_nth' l d H). reflexivity. Qed.

Lemma Forall_nth_same (l : list (vol V)) k : Forall same l -> same (nth k l ref).
Proof.
  intros H. destruct (Nat.lt_ge_cases k (length l)).
  - rewrite Forall_forall in H. apply H. now apply nth_In.
  - rewrite nth_overflow by lia. apply same_dims_refl.
Qed.

Lemma combine_ok it k s vols out :
  0 <= vsize ref ->
  Forall same vols -> same out -> (k < substeps it)%nat -> length vols = S (substeps it) ->
  exists o, combine it k s vols out = Ok o /\ same o /\
    forall c, inr ref c -> vget o c = comb it k s (fun j => vget (nth j vols ref) c) (vget out c).
Proof.
  intros P Hv Ho Hk Hl.
  assert (S : forall j, same (nth j vols ref)) by (intros; now apply Forall_nth_same).
  assert (A : forall j, (j < length vols)%nat -> vat vols j = Ok (nth j vols ref)) by (intros; now apply vat_nth).
  destruct it; simpl substeps in *.
  - assert (k = 0)%nat by lia. subst k. simpl. rewrite A by lia. cbn [bind].
    destruct (add_ok (vol_scale s out) (nth 0 vols ref)) as (o & E & D & W); auto using scale_same.
    exists o. split; [exact E|]. split; [exact D|]. intros c Hc. rewrite W, scale_ok; auto.
  - unfold combine. rewrite A by lia. cbn [bind].
    destruct (add_ok (vol_scale s out) (nth k vols ref)) as (o & E & D & W); auto using scale_same.
    rewrite E. cbn [bind]. destruct k as [|[|k]]; [| |lia].
    + exists o. split; [reflexivity|]. split; [exact D|]. intros c Hc. rewrite W, scale_ok; auto.
    + rewrite A by lia. cbn [bind].
      destruct (add_ok o (nth 0 vols ref)) as (o1 & E1 & D1 & W1); auto.
      rewrite E1. cbn [bind]. eexists. split; [reflexivity|]. split; [exact D1|].
      intros c Hc. rewrite scale_ok, W1, W, scale_ok; auto.
  - unfold combine. rewrite A by lia. cbn [bind].
    destruct (add_ok (vol_scale s out) (nth k vols ref)) as (o & E & D & W); auto using scale_same.
    rewrite E. cbn [bind]. destruct k as [|[|[|k]]]; [| | |lia].
    + exists o. split; [reflexivity|]. split; [exact D|]. intros c Hc. rewrite W, scale_ok; auto.
    + rewrite A by lia. cbn [bind].
      destruct (add_ok (vol_scale (1 / 3) o) (nth 0 vols ref)) as (o1 & E1 & D1 & W1); auto using scale_same.
      rewrite E1. cbn [bind]. eexists. split; [reflexivity|]. split; [exact D1|].
      intros c Hc. rewrite scale_ok, W1, scale_ok, W, scale_ok; auto.
    + rewrite A by lia. cbn [bind].
      destruct (add_ok (vol_scale 2 o) (nth 0 vols ref)) as (o1 & E1 & D1 & W1); auto using scale_same.
      rewrite E1. cbn [bind]. eexists. split; [reflexivity|]. split; [exact D1|].
      intros c Hc. rewrite scale_ok, W1, scale_ok, W, scale_ok; auto.
  - unfold combine. destruct k as [|[|[|[|k]]]]; [| | | |lia].
    1,2: rewrite A by lia; cbn [bind];
      destruct (add_ok (vol_scale (1 / 2) (vol_scale s out)) (nth 0 vols ref)) as (o & E & D & W);
        auto using scale_same;
      exists o; split; [exact E|]; split; [exact D|]; intros c Hc; rewrite W, scale_ok, scale_ok;
        auto using scale_same.
    + rewrite A by lia. cbn [bind].
      destruct (add_ok (vol_scale s out) (nth 0 vols ref)) as (o & E & D & W); auto using scale_same.
      exists o. split; [exact E|]. split; [exact D|]. intros c Hc. rewrite W, scale_ok; auto.
    + rewrite !A by lia. cbn [bind]. apply lincomb_ok; auto.
Qed.

End Ops.

Section Step.
Context {V : cvars} {Sc : Type}.
Variable ref : vol V.
Hypothesis Hsize : 0 <= vsize ref < 2 ^ 31.
Notation same := (same_dims ref).
Variable I : cell -> Prop.
Hypothesis HI : forall c, I c -> inr ref c.
Variable good : vol V -> Prop.
Hypothesis Hgood : forall v, good v -> same v.
Variable okS : Sc -> Prop.
Variable L : field V -> field V.
Variable speed_ok : field V -> (Z -> R) -> Prop.
Variable sys : system V Sc.
Variable bc : vol V -> res (vol V).
Hypothesis HL : forall a b, (forall c, I c -> a c = b c) -> forall c, I c -> L a c = L b c.
Hypothesis Hsys : forall u out sc, good u -> same out -> okS sc ->
  exists u' out' ws sc', sys u out sc = Ok (u', out', ws, sc') /\
    good u' /\ same out' /\ okS sc' /\
    (forall c, I c -> vget u' c = vget u c) /\
    (forall c, I c -> vget out' c = L (vget u) c) /\
    speed_ok (vget u) ws.
Hypothesis Hbc : forall v, same v ->
  exists v', bc v = Ok v' /\ good v' /\ forall c, I c -> vget v' c = vget v c.

Lemma vset_length {A} (l : list A) k a : length (vset l k a) = length l.
Proof. revert k. induction l; intros [|k]; simpl; auto. Qed.
Lemma vset_nth {A} (l : list A) k j a d : (k < length l)%nat ->
  nth j (vset l k a) d = if Nat.eqb j k then a else nth j l d.
Proof.
  revert k j. induction l; intros [|k] [|j] H; simpl in *; try lia; auto.
  apply IHl. lia.
Qed.
Lemma vset_Forall {A} (P : A -> Prop) (l : list A) k a : Forall P l -> P a -> Forall P (vset l k a).
Proof.
  intros H Ha. revert k. induction H; intros [|k]; simpl; auto.
Qed.

(** Body of the loop over the substeps. *)
Definition body (it : integrator) (p : params) (adj : list (R -> R)) (k : nat)
    (s : list (vol V) * R * Sc) : res (list (vol V) * R * Sc) :=
  let '(vols, dt, sc) := s in
  r <- perform_substep it sys p adj k vols dt sc;;
  let '(vols, dt, sc) := r in
  o <- vat vols (S k);;
  o' <- bc o;;
  Ok (vset vols (S k) o', dt, sc).

Lemma body_ok it p adj k vols dt sc :
  Forall same vols -> length vols = S (substeps it) -> (k < substeps it)%nat ->
  good (nth (input_index it k) vols ref) -> okS sc ->
  exists vols' dt' sc' ws,
    body it p adj k (vols, dt, sc) = Ok (vols', dt', sc') /\
    Forall same vols' /\ length vols' = S (substeps it) /\ okS sc' /\
    speed_ok (vget (nth (input_index it k) vols ref)) ws /\
    dt' = (if sets_dt it k then compute_timestep (p_wadj p) adj ws (p_len p) (p_cfl p) else dt) /\
    good (nth (S k) vols' ref) /\ good (nth (input_index it k) vols' ref) /\
    (forall j, j <> S k -> j <> input_index it k -> nth j vols' ref = nth j vols ref) /\
    (forall j c, j <> S k -> I c -> vget (nth j vols' ref) c = vget (nth j vols ref) c) /\
    (forall c, I c -> vget (nth (S k) vols' ref) c =
       comb it k (dt' / p_len p 0) (fun j => vget (nth j vols ref) c)
         (L (vget (nth (input_index it k) vols ref)) c)).
Proof.
  intros Hv Hl Hk Hg Hs.
  set (i := input_index it k) in *.
  assert (Hi : (i <= k)%nat) by (unfold i; destruct it; simpl; lia).
  unfold body, perform_substep. fold i.
  rewrite (vat_nth vols i ref) by lia. rewrite (vat_nth vols (S k) ref) by lia. cbn [bind].
  destruct (Hsys (nth i vols ref) (nth (S k) vols ref) sc) as
    (u' & out' & ws & sc' & E & Gu & So & Os & Ag & Lo & Sp); auto.
  { apply Forall_nth_same; auto. }
  rewrite E. cbn [bind].
  set (dt' := if sets_dt it k then _ else dt).
  set (vols' := vset vols i u').
  assert (Sv' : Forall same vols') by (apply vset_Forall; auto).
  assert (Lv' : length vols' = S (substeps it)) by (unfold vols'; rewrite vset_length; exact Hl).
  destruct (combine_ok ref (proj2 Hsize) it k (dt' / p_len p 0) vols' out') as (o & Eo & Do & Wo);
    auto; [lia|].
  rewrite Eo. cbn [bind].
  rewrite (vat_nth (vset vols' (S k) o) (S k) ref) by (rewrite vset_length; lia).
  cbn [bind]. rewrite vset_nth by lia. rewrite Nat.eqb_refl.
  destruct (Hbc o Do) as (o' & Eb & Gb & Wb). rewrite Eb. cbn [bind].
  eexists. exists dt', sc', ws. split; [reflexivity|].
  assert (Nth : forall j, nth j (vset (vset vols' (S k) o) (S k) o') ref =
     if Nat.eqb j (S k) then o' else if Nat.eqb j i then u' else nth j vols ref).
  { intros j. rewrite vset_nth by (rewrite vset_length; lia). destruct (Nat.eqb j (S k)) eqn:Ej; [reflexivity|].
    rewrite vset_nth by lia. rewrite Ej. unfold vols'. now rewrite vset_nth by lia. }
  split; [|split; [|split; [|split; [|split; [|split; [|split; [|split; [|split]]]]]]]].
  - apply vset_Forall; [apply vset_Forall; auto|auto].
  - now rewrite !vset_length.
  - exact Os.
  - exact Sp.
  - reflexivity.
  - rewrite Nth, Nat.eqb_refl. exact Gb.
  - rewrite Nth. destruct (Nat.eqb_spec i (S k)); [lia|]. now rewrite Nat.eqb_refl.
  - intros j N1 N2. rewrite Nth. destruct (Nat.eqb_spec j (S k)); [contradiction|].
    destruct (Nat.eqb_spec j i); [contradiction|reflexivity].
  - intros j c N Hc. rewrite Nth. destruct (Nat.eqb_spec j (S k)); [contradiction|].
    destruct (Nat.eqb_spec j i) as [->|]; [|reflexivity]. now apply Ag.
  - intros c Hc. rewrite Nth, Nat.eqb_refl. rewrite Wb by exact Hc. rewrite Wo by auto.
    rewrite Lo by exact Hc.
    assert (forall j, vget (nth j vols' ref) c = vget (nth j vols ref) c) as Ej.
    { intros j. unfold vols'. rewrite vset_nth by lia.
      destruct (Nat.eqb_spec j i) as [->|]; [|reflexivity]. now apply Ag. }
    unfold comb. destruct it; try rewrite !Ej; try reflexivity;
      destruct k as [|[|[|[|k]]]]; rewrite ?Ej; reflexivity.
Qed.

Definition inv (it : integrator) (st : sim V Sc) : Prop :=
  Forall same (s_vols st) /\ length (s_vols st) = S (substeps it) /\
  good (nth 0 (s_vols st) ref) /\ okS (s_sys st).

Definition cur (st : sim V Sc) : field V := vget (nth 0 (s_vols st) ref).

Lemma fplus_at (a b : field V) c : fplus a b c = vadd (a c) (b c).
Proof. reflexivity. Qed.
Lemma fmul_at k (a : field V) c : fmul k a c = vscal k (a c).
Proof. reflexivity. Qed.
Lemma euler_at h (a : field V) c : euler L h a c = vadd (a c) (vscal h (L a c)).
Proof. reflexivity. Qed.
Ltac veq := intros; apply comp_ext; intros; repeat rewrite ?fplus_at, ?fmul_at, ?euler_at, ?comp_add, ?comp_scal, ?comp_zero.

Lemma swap_ok (vols : list (vol V)) n :
  length vols = S (S n) ->
  exists vols', swap_ends vols = Ok vols' /\ length vols' = S (S n) /\
    (Forall same vols -> Forall same vols') /\ nth 0 vols' ref = nth (S n) vols ref.
Proof.
  intros Hl. unfold swap_ends. rewrite Hl. replace (S (S n) - 1)%nat with (S n) by lia.
  rewrite (vat_nth vols 0 ref), (vat_nth vols (S n) ref) by lia. cbn [bind].
  eexists. split; [reflexivity|]. split; [now rewrite !vset_length|]. split.
  - intros H. apply vset_Forall; [apply vset_Forall; auto|]; now apply Forall_nth_same.
  - rewrite vset_nth by (rewrite vset_length; lia). cbn [Nat.eqb]. rewrite vset_nth by lia. reflexivity.
Qed.

Theorem increment_ok it p adj st :
  inv it st ->
  exists st' dt ws,
    increment_solution it sys bc p adj st = Ok st' /\ inv it st' /\
    speed_ok (cur st) ws /\
    dt = compute_timestep (p_wadj p) (adj (s_time st)) ws (p_len p) (p_cfl p) /\
    s_time st' = (s_time st + dt)%R /\ s_steps st' = S (s_steps st) /\
    forall c, I c -> cur st' c = textbook L it (dt / p_len p 0) (cur st) c.
Proof.
  intros (Hv & Hl & Hg & Hs). unfold increment_solution.
  change (fun (k : nat) (s : list (vol V) * R * Sc) => let '(vols, dt, sc) := s in
     r <- perform_substep it sys p (adj (s_time st)) k vols dt sc;;
     (let '(vols0, dt0, sc0) := r in o <- vat vols0 (S k);; o' <- bc o;; Ok (vset vols0 (S k) o', dt0, sc0)))
    with (body it p (adj (s_time st))).
  destruct (body_ok it p (adj (s_time st)) 0 (s_vols st) 0%R (s_sys st)) as
    (v1 & dt & sc1 & ws & E1 & F1 & L1 & S1 & Sp & Dt & G1 & G10 & N1 & K1 & W1); auto.
  { destruct it; simpl; lia. }
  { destruct it; exact Hg. }
  assert (I0 : input_index it 0 = O) by (destruct it; reflexivity).
  rewrite I0 in *.
  assert (Dt' : dt = compute_timestep (p_wadj p) (adj (s_time st)) ws (p_len p) (p_cfl p)).
  { rewrite Dt. destruct it; reflexivity. }
  clear Dt. set (h := (dt / p_len p 0)%R) in *.
  set (u := vget (nth 0 (s_vols st) ref)) in *.
  destruct it; cbn [substeps seq fold_res].
  - rewrite E1. cbn [bind].
    destruct (swap_ok v1 0 L1) as (v' & E' & L' & F' & X'). rewrite E'. cbn [bind].
    eexists. exists dt, ws. split; [reflexivity|]. cbn [s_time s_steps].
    split; [repeat split; cbn [s_vols s_sys]; auto; rewrite X'; exact G1|].
    split; [exact Sp|]. split; [exact Dt'|]. split; [reflexivity|]. split; [reflexivity|].
    intros c Hc. unfold cur; cbn [s_vols]. fold h. rewrite X', W1 by exact Hc.
    cbn [comb]. unfold textbook. veq. unfold u. ring.
  - rewrite E1. cbn [bind].
    destruct (body_ok RungeKutta2 p (adj (s_time st)) 1 v1 dt sc1) as
      (v2 & dt2 & sc2 & ws2 & E2 & F2 & L2 & S2 & Sp2 & Dt2 & G2 & G21 & N2 & K2 & W2); auto; try (simpl; lia).
    cbn [sets_dt Nat.eqb] in Dt2. subst dt2. rewrite E2. cbn [bind].
    destruct (swap_ok v2 1 L2) as (v' & E' & L' & F' & X'). rewrite E'. cbn [bind].
    eexists. exists dt, ws. split; [reflexivity|]. cbn [s_time s_steps].
    split; [repeat split; cbn [s_vols s_sys]; auto; rewrite X'; exact G2|].
    split; [exact Sp|]. split; [exact Dt'|]. split; [reflexivity|]. split; [reflexivity|].
    intros c Hc. unfold cur; cbn [s_vols]. fold h. rewrite X', W2 by exact Hc. fold h.
    cbn [comb input_index]. rewrite W1, (K1 0%nat) by (auto; lia). fold u.
    rewrite (HL _ (fplus u (fmul h (L u)))).
    + cbn [comb]. unfold textbook, heun. veq. fold u. field.
    + intros c' Hc'. rewrite W1 by exact Hc'. cbn [comb]. veq. fold u. ring.
    + exact Hc.
  - rewrite E1. cbn [bind].
    destruct (body_ok RungeKutta3 p (adj (s_time st)) 1 v1 dt sc1) as
      (v2 & dt2 & sc2 & ws2 & E2 & F2 & L2 & S2 & Sp2 & Dt2 & G2 & G21 & N2 & K2 & W2); auto; try (simpl; lia).
    cbn [sets_dt Nat.eqb] in Dt2. subst dt2. rewrite E2. cbn [bind]. fold h in W2.
    destruct (body_ok RungeKutta3 p (adj (s_time st)) 2 v2 dt sc2) as
      (v3 & dt3 & sc3 & ws3 & E3 & F3 & L3 & S3 & Sp3 & Dt3 & G3 & G32 & N3 & K3 & W3); auto; try (simpl; lia).
    cbn [sets_dt Nat.eqb] in Dt3. subst dt3. rewrite E3. cbn [bind]. fold h in W3.
    destruct (swap_ok v3 2 L3) as (v' & E' & L' & F' & X'). rewrite E'. cbn [bind].
    eexists. exists dt, ws. split; [reflexivity|]. cbn [s_time s_steps].
    split; [repeat split; cbn [s_vols s_sys]; auto; rewrite X'; exact G3|].
    split; [exact Sp|]. split; [exact Dt'|]. split; [reflexivity|]. split; [reflexivity|].
    intros c Hc. unfold cur; cbn [s_vols]. fold h. rewrite X', W3 by exact Hc.
    cbn [input_index] in *.
    assert (U1 : forall c, I c -> vget (nth 1 v1 ref) c = euler L h u c).
    { intros c' Hc'. rewrite W1 by exact Hc'. cbn [comb]. veq. fold u. ring. }
    assert (U2 : forall c, I c -> vget (nth 2 v2 ref) c =
       fplus (fmul (3 / 4) u) (fmul (1 / 4) (euler L h (euler L h u))) c).
    { intros c' Hc'. rewrite W2 by exact Hc'. cbn [comb]. rewrite (K1 0%nat) by (auto; lia). fold u.
      rewrite (HL _ _ U1) by exact Hc'. rewrite U1 by exact Hc'.
      veq. field. }
    cbn [comb]. rewrite (K2 0%nat), (K1 0%nat) by (auto; lia). fold u.
    rewrite (HL _ _ U2) by exact Hc. rewrite U2 by exact Hc.
    unfold textbook, ssprk3. veq. field.
  - rewrite E1. cbn [bind].
    destruct (body_ok RungeKutta4 p (adj (s_time st)) 1 v1 dt sc1) as
      (v2 & dt2 & sc2 & ws2 & E2 & F2 & L2 & S2 & Sp2 & Dt2 & G2 & G21 & N2 & K2 & W2); auto; try (simpl; lia).
    cbn [sets_dt Nat.eqb] in Dt2. subst dt2. rewrite E2. cbn [bind]. fold h in W2.
    destruct (body_ok RungeKutta4 p (adj (s_time st)) 2 v2 dt sc2) as
      (v3 & dt3 & sc3 & ws3 & E3 & F3 & L3 & S3 & Sp3 & Dt3 & G3 & G32 & N3 & K3 & W3); auto; try (simpl; lia).
    cbn [sets_dt Nat.eqb] in Dt3. subst dt3. rewrite E3. cbn [bind]. fold h in W3.
    destruct (body_ok RungeKutta4 p (adj (s_time st)) 3 v3 dt sc3) as
      (v4 & dt4 & sc4 & ws4 & E4 & F4 & L4 & S4 & Sp4 & Dt4 & G4 & G43 & N4 & K4 & W4); auto; try (simpl; lia).
    cbn [sets_dt Nat.eqb] in Dt4. subst dt4. rewrite E4. cbn [bind]. fold h in W4.
    destruct (swap_ok v4 3 L4) as (v' & E' & L' & F' & X'). rewrite E'. cbn [bind].
    eexists. exists dt, ws. split; [reflexivity|]. cbn [s_time s_steps].
    split; [repeat split; cbn [s_vols s_sys]; auto; rewrite X'; exact G4|].
    split; [exact Sp|]. split; [exact Dt'|]. split; [reflexivity|]. split; [reflexivity|].
    intros c Hc. unfold cur; cbn [s_vols]. fold h. rewrite X', W4 by exact Hc.
    cbn [input_index] in *.
    set (k1 := L u) in *.
    assert (U1 : forall c, I c -> vget (nth 1 v1 ref) c = fplus u (fmul (h / 2) k1) c).
    { intros c' Hc'. rewrite W1 by exact Hc'. cbn [comb]. veq. fold u. field. }
    set (k2 := L (fplus u (fmul (h / 2) k1))) in *.
    assert (U2 : forall c, I c -> vget (nth 2 v2 ref) c = fplus u (fmul (h / 2) k2) c).
    { intros c' Hc'. rewrite W2 by exact Hc'. cbn [comb]. rewrite (K1 0%nat) by (auto; lia). fold u.
      rewrite (HL _ _ U1) by exact Hc'. fold k2. veq. field. }
    set (k3 := L (fplus u (fmul (h / 2) k2))) in *.
    assert (U3 : forall c, I c -> vget (nth 3 v3 ref) c = fplus u (fmul h k3) c).
    { intros c' Hc'. rewrite W3 by exact Hc'. cbn [comb]. rewrite (K2 0%nat), (K1 0%nat) by (auto; lia). fold u.
      rewrite (HL _ _ U2) by exact Hc'. fold k3. veq. field. }
    cbn [comb].
    rewrite (K3 0%nat), (K2 0%nat), (K1 0%nat) by (auto; lia). fold u.
    rewrite (K3 1%nat), (K2 1%nat), U1 by (auto; lia).
    rewrite (K3 2%nat), U2 by (auto; lia).
    rewrite (HL _ _ U3) by exact Hc. rewrite U3 by exact Hc.
    unfold textbook, classic_rk4. fold k1. fold k2. fold k3. veq. field.
Qed.

End Step.
