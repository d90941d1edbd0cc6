(** C66: the OpenMP loops have one outcome. *)
From Coq Require Import ZArith Reals List Bool Lia Lra Permutation FunctionalExtensionality.
From Verif Require Import M_Base L_Base M_Vec M_Boundary M_Flux M_Sim M_Memory M_Scalar M_Recon M_Eno M_TecnoEno
  S_Boundary S_Flux L_FluxTop T_Flux T_Eno M_Omp M_OmpEno L_Omp L_OmpFlux L_OmpEno.
Import ListNotations.
Open Scope Z_scope.

(** Iterations that touch no common element, unless both only read it: every
    interleaving ends as the loop on one thread, none is undefined, and there is
    no endless one. *)
Theorem C66_independent_iterations {A X} (size : Z -> Z) (ps : list (prog A X)) m x :
  (forall l p c q r, ps = l ++ p :: c ++ q :: r ->
     forall w w' a i, accs p w a i -> accs q w' a i -> w = false /\ w' = false) ->
  run_loop size ps m = Ok x ->
  (forall r, outcome size ps m r <-> r = Ok x) /\
  exists n, forall k s, psteps size k (m, ps) s -> (k <= n)%nat.
Proof.
  intros H Hr. assert (independent ps) as Hi.
  { clear - H. induction ps as [|p ps IH]; constructor.
    - rewrite Forall_forall. intros q Hq w w' a i H1 H2. apply in_split in Hq. destruct Hq as (c & r & ->).
      exact (H [] p c q r eq_refl w w' a i H1 H2).
    - apply IH. intros l p' c q r E. apply (H (p :: l) p' c q r). rewrite E. reflexivity. }
  destruct (outcome_unique size ps m x Hi Hr) as (H1 & H2 & H3).
  split; [|exact H3]. intros r. split; [apply H2|intros ->; exact H1].
Qed.

Lemma reduced_fold {X} (op : X -> X -> X) xs x : reduced op (x :: xs) (fold_left op xs x).
Proof.
  revert x. induction xs as [|y xs IH] using rev_ind; intros x; [constructor|].
  rewrite fold_left_app. cbn [fold_left]. apply (reduced_two op (x :: xs) [y]); [apply Permutation_refl|apply IH|constructor].
Qed.

(** computeFlux on any number of threads: the arrays and, however the wave speeds
    are combined, the wave speed of each direction are those of [compute_flux].
    The initial 0 is the value of waveSpeedComputed before the loops. *)
Theorem C66_compute_flux (V : cvars) dims g (fx : numflux V) (rc : recon V) u start fin s s' :
  same_dims u (f_left s) -> same_dims u (f_right s) -> same_dims u (f_temp s) -> same_dims u (f_out s) ->
  compute_flux dims g fx rc u start fin s = Ok s' ->
  exists xs,
    (forall r, outcomes (fun _ => vsize u) (omp_compute_flux dims g fx rc (vnx u) (vny u) (vnz u) start fin)
                        (flux_mem u s) r <-> r = Ok (flux_mem u s', xs)) /\
    forall d, 0 <= d < dims ->
      forall w, reduced Rmax (0%R :: map snd (filter (fun x => fst x =? d) xs)) w <-> w = f_speed s' d.
Proof.
  intros H1 H2 H3 H4 H.
  assert (memrel (vnx u) (vny u) (vnz u) u s (flux_mem u s)) as HR.
  { unfold memrel, dims3. unfold same_dims in *.
    destruct H1 as (? & ? & ?), H2 as (? & ? & ?), H3 as (? & ? & ?), H4 as (? & ? & ?). repeat split; congruence. }
  destruct (compute_sim dims g fx rc _ _ _ start fin u s _ s' HR H) as (m' & xs & Hr & HR' & _ & Hs & _).
  destruct (outcomes_unique _ _ _ _ (compute_independent dims g fx rc (vnx u) (vny u) (vnz u) start fin) Hr) as [O U].
  assert (m' = flux_mem u s') as ->.
  { extensionality a. extensionality i. apply HR'. }
  exists xs. split.
  - intros r. split; [apply U|intros ->; exact O].
  - intros d Hd w. rewrite (Hs d Hd). split; [apply reduced_top|]. intros ->. apply reduced_fold.
Qed.

(** Together with C04 and C07: for every admissible setting the right hand side
    comes out, whatever the schedule. *)
Theorem C66_right_hand_side (V : cvars) dims g (fx : numflux V) rc nx ny nz u s :
  1 <= dims <= 3 -> compatible fx rc g -> 0 < nx -> 0 < ny -> 0 < nz ->
  ext dims g nx ny nz u -> ext_state dims g nx ny nz s ->
  exists s' xs,
    (forall r, outcomes (fun _ => vsize u)
       (omp_compute_flux dims g fx rc (vnx u) (vny u) (vnz u) (fun _ => 0) (fun _ => 0)) (flux_mem u s) r <->
       r = Ok (flux_mem u s', xs)) /\
    (forall c, interior dims g nx ny nz c -> vget (f_out s') c = rhs dims fx rc (vget u) c) /\
    is_wave_speed dims g nx ny nz fx rc (vget u) (f_speed s') /\
    forall d, 0 <= d < dims ->
      forall w, reduced Rmax (0%R :: map snd (filter (fun x => fst x =? d) xs)) w <-> w = f_speed s' d.
Proof.
  intros Hd Hc Hx Hy Hz Hu Hs.
  destruct (compute_top dims g fx rc nx ny nz Hd Hc Hx Hy Hz u s Hu Hs) as (s' & E & _ & Ho & _ & Hw).
  assert (forall w, ext dims g nx ny nz w -> same_dims u w) as S by (intros w Hw'; exact (proj2 (ext_same dims g nx ny nz u w Hu) Hw')).
  destruct Hs as (S1 & S2 & S3 & S4).
  destruct (C66_compute_flux V dims g fx rc u (fun _ => 0) (fun _ => 0) s s' (S _ S1) (S _ S2) (S _ S3) (S _ S4) E) as (xs & HO & HW).
  exists s', xs. auto.
Qed.

(** * The element-wise operations *)

(** Array 0 is [data], the others the arguments; afterwards [data] is [v']. *)
Definition only_outcome (vs : Z -> vol R) (hi : Z) (ws : list Z) (f : R -> list R -> R) (v' : vol R) : Prop :=
  forall r, outcomes (fun a => vsize (vs a)) (omp_elementwise hi ws f) (fun a => vdat (vs a)) r <->
            r = Ok (fun a => if a =? 0 then vdat v' else vdat (vs a), []).

Lemma accs_loads_at ws : forall i k w a j, accs (loads_at ws i k) w a j -> j = i \/ exists vs, accs (k vs) w a j.
Proof.
  induction ws as [|b ws IH]; cbn; intros i k w a j H; [right; eauto|].
  inversion H; subst; [auto|]. match goal with K : accs (loads_at _ _ _) _ _ _ |- _ => apply IH in K; destruct K as [?|(vs & K)] end; eauto.
Qed.
Lemma run_loads_at size (vs : Z -> vol R) i m : (forall a, size a = vsize (vs a)) ->
  forall ws bs k, (forall a, In a ws -> m a i = vdat (vs a) i) ->
  map_res (fun w => mload (vs w) i) ws = Ok bs -> run size (loads_at ws i k) m = run size (k bs) m.
Proof.
  intros Hsz. induction ws as [|b ws IH]; cbn [map_res loads_at]; intros bs k Hm H.
  - injection H as <-. reflexivity.
  - unfold mload at 1 in H. destruct ((0 <=? i) && (i <? vsize (vs b))) eqn:E; cbn [bind] in H; [|discriminate].
    destruct (map_res _ ws) as [bs1| |] eqn:E2; cbn [bind] in H; try discriminate. injection H as <-.
    cbn [run]. unfold inside. rewrite Hsz, E, (Hm b) by (cbn; auto).
    apply (IH bs1 (fun l => k (vdat (vs b) i :: l))); [intros; apply Hm; cbn; auto|reflexivity].
Qed.

Lemma elementwise (vs : Z -> vol R) hi ws (f : R -> list R -> R) v' :
  ew_loop hi (fun i a => bs <- map_res (fun w => mload (vs w) i) ws;; Ok (f a bs)) (vs 0) = Ok v' ->
  only_outcome vs hi ws f v'.
Proof.
  intros H. set (size := fun a => vsize (vs a)).
  assert (forall l, NoDup l -> forall v (m : shared R) v', vsize v = vsize (vs 0) ->
    (forall j, In j l -> vdat v j = vdat (vs 0) j) ->
    (forall a j, m a j = if a =? 0 then vdat v j else vdat (vs a) j) ->
    fold_res (fun i w => a <- mload w i;; b <- (bs <- map_res (fun w => mload (vs w) i) ws;; Ok (f a bs));; mstore w i b) l v = Ok v' ->
    exists m', fold_res (acc size (fun i => Fetch 0 i (fun a => loads_at ws i (fun bs => Store 0 i (f a bs) (Ret [])))))
                 l (m, []) = Ok (m', []) /\
      forall a j, m' a j = if a =? 0 then vdat v' j else vdat (vs a) j) as K.
  { intros l Hn. induction Hn as [|i l Hi Hn IH]; intros v m v1 Hsz Hv Hm Hf; cbn [fold_res] in *.
    - injection Hf as <-. eauto.
    - unfold mload at 1 in Hf. destruct ((0 <=? i) && (i <? vsize v)) eqn:E; cbn [bind] in Hf; [|discriminate].
      destruct (map_res _ ws) as [bs| |] eqn:Eb; cbn [bind] in Hf; try discriminate.
      unfold mstore at 1 in Hf. rewrite E in Hf. cbn [bind] in Hf.
      assert (inside size 0 i = true) as Hin by (unfold inside, size; rewrite <- Hsz; exact E).
      unfold acc at 1. cbn [fst snd run]. rewrite Hin.
      rewrite (run_loads_at size vs i m (fun _ => eq_refl) ws bs _); [|intros a _|exact Eb].
      + cbn [run]. rewrite Hin. cbn [bind fst snd app].
        match type of Hf with fold_res _ l ?vv = _ => apply (IH vv _ v1); [exact Hsz| | |exact Hf] end.
        * cbn [vdat]. intros j Hj. destruct (Z.eqb_spec j i); [subst; contradiction|]. apply Hv. cbn; auto.
        * cbn [vdat]. intros a j. unfold put. destruct (Z.eqb_spec a 0) as [->|]; cbn [andb].
          -- destruct (j =? i); rewrite !Hm; reflexivity.
          -- rewrite Hm. destruct (Z.eqb_spec a 0); [contradiction|reflexivity].
      + rewrite Hm. destruct (Z.eqb_spec a 0) as [->|]; [apply Hv; cbn; auto|reflexivity]. }
  destruct (K (zrange 0 hi) (zrange_NoDup _ _) (vs 0) (fun a => vdat (vs a)) v') as (m' & Hr & Hm'); auto.
  { intros a j. destruct (Z.eqb_spec a 0) as [->|]; reflexivity. }
  assert (m' = fun a => if a =? 0 then vdat v' else vdat (vs a)) as ->.
  { extensionality a. extensionality j. rewrite Hm'. destruct (a =? 0); reflexivity. }
  assert (run_loops size (omp_elementwise hi ws f) (fun a => vdat (vs a)) =
          Ok (fun a => if a =? 0 then vdat v' else vdat (vs a), [])) as Hl.
  { unfold omp_elementwise. rewrite run_loops_cons, run_loop_map, Hr. reflexivity. }
  assert (Forall independent (omp_elementwise hi ws f)) as Hi.
  { constructor; [|constructor]. apply map_independent; [apply zrange_NoDup|].
    intros i j _ _ Hne w w' a q H1 H2. exfalso. apply Hne.
    assert (forall i w a q, accs (Fetch (A := R) (X := unit) 0 i (fun a => loads_at ws i (fun bs => Store 0 i (f a bs) (Ret [])))) w a q -> q = i) as L.
    { clear. intros i w a q H. inversion H; subst; auto.
      match goal with G : accs (loads_at _ _ _) _ _ _ |- _ => apply accs_loads_at in G; destruct G as [->|(l & G)]; auto; inversion G; subst; auto end.
      match goal with G : accs (Ret _) _ _ _ |- _ => inversion G end. }
    rewrite <- (L _ _ _ _ H1). exact (L _ _ _ _ H2). }
  destruct (outcomes_unique size _ _ _ Hi Hl) as [O U]. intros r. split; [apply U|intros ->; exact O].
Qed.

(** The operations of a memory area.  The second operand may be the area itself
    ([b] = 0, and so on). *)
Theorem C66_memory_operations (vs : Z -> vol R) (b b3 b4 b5 : Z) (c c1 c2 c3 c4 c5 : R) (p : Z) v' :
  let v := vs 0 in let w := vs b in
  (mem_add v w = Ok v' -> only_outcome vs (int_bound v) [b] (fun x l => x + hd 0 l)%R v') /\
  (mem_sub v w = Ok v' -> only_outcome vs (int_bound v) [b] (fun x l => x - hd 0 l)%R v') /\
  (mem_mul v w = Ok v' -> only_outcome vs (int_bound v) [b] (fun x l => x * hd 0 l)%R v') /\
  (mem_div v w = Ok v' -> only_outcome vs (int_bound v) [b] (fun x l => x / hd 0 l)%R v') /\
  (mem_adds v c = Ok v' -> only_outcome vs (int_bound v) [] (fun x _ => x + c)%R v') /\
  (mem_subs v c = Ok v' -> only_outcome vs (int_bound v) [] (fun x _ => x - c)%R v') /\
  (mem_muls v c = Ok v' -> only_outcome vs (int_bound v) [] (fun x _ => x * c)%R v') /\
  (mem_divs v c = Ok v' -> only_outcome vs (int_bound v) [] (fun x _ => x / c)%R v') /\
  (mem_zero v = Ok v' -> only_outcome vs (int_bound v) [] (fun _ _ => 0%R) v') /\
  (mem_lincomb v c1 c2 w c3 (vs b3) c4 (vs b4) c5 (vs b5) = Ok v' ->
     only_outcome vs (vsize v) [b; b3; b4; b5]
       (fun x l => c1 * x + c2 * nth 0 l 0 + c3 * nth 1 l 0 + c4 * nth 2 l 0 + c5 * nth 3 l 0)%R v') /\
  (mem_addpow v w p c = Ok v' -> only_outcome vs (vsize v) [b] (fun x l => x + c * powerRZ (hd 0%R l) p)%R v') /\
  (mem_addpower v w p = Ok v' -> only_outcome vs (vsize v) [b] (fun x l => x + powerRZ (hd 0%R l) p)%R v') /\
  (mem_subpower v w p = Ok v' -> only_outcome vs (vsize v) [b] (fun x l => x - powerRZ (hd 0%R l) p)%R v').
Proof.
  cbv zeta.
  assert (forall hi ws f (g : Z -> R -> res R),
    (forall i a, g i a = (bs <- map_res (fun w => mload (vs w) i) ws;; Ok (f a bs))) ->
    ew_loop hi g (vs 0) = Ok v' -> only_outcome vs hi ws f v') as L.
  { intros hi ws f g Hg H. apply elementwise. rewrite <- H. unfold ew_loop, for_. apply fold_res_ext.
    intros i w0 _. destruct (mload w0 i); cbn [bind]; auto. rewrite Hg. reflexivity. }
  do 12 try match goal with |- _ /\ _ => split end; intros H;
    unfold mem_add, mem_sub, mem_mul, mem_div, mem_adds, mem_subs, mem_muls, mem_divs, mem_zero, mem_lincomb,
      mem_addpow, mem_addpower, mem_subpower in H;
    try (destruct (negb _) in H; [discriminate|]);
    (eapply L; [|exact H]); intros i a; cbn [map_res bind];
    repeat (match goal with |- context [mload (vs ?q) i] => destruct (mload (vs q) i) end; cbn [bind hd nth]; auto); reflexivity.
Qed.

(** * The ENO reconstructions *)

Theorem C66_eno (V : cvars) k (ind : V -> R) d (u : vol V) scratch l r start fin dd l' r' :
  same_dims u l -> same_dims u r -> Forall (same_dims u) scratch -> length scratch = (k - 1)%nat ->
  eno_perform k ind (vload u) d u scratch l r start fin = Ok (dd, (l', r')) ->
  forall q, outcomes (fun _ => vsize u) (omp_eno (vnx u) (vny u) (vnz u) k d start fin) (eno_mem u l r dd) q <->
            q = Ok (eno_mem u l' r' dd, []).
Proof.
  intros Hl Hr Hs Hk H.
  assert (forall B (w : vol B), same_dims u w -> dims3 (vnx u) (vny u) (vnz u) w) as D.
  { intros B w (? & ? & ?). unfold dims3. auto. }
  pose proof (eno_sim (vnx u) (vny u) (vnz u) k ind d u scratch l r start fin dd l' r') as S.
  specialize (S (D _ _ (same_dims_refl u)) (D _ _ Hl) (D _ _ Hr) (Forall_impl _ (D R) Hs) Hk H).
  destruct (outcomes_unique _ _ _ _ (eno_independent _ _ _ k d start fin) S) as [O U].
  intros q. split; [apply U|intros ->; exact O].
Qed.

(** One variable of the reconstruction for TeCNO: here the divided differences are
    computed in parallel too. *)
Theorem C66_tecno_eno k d el er scratch l r dd l' r' :
  same_dims el er -> same_dims el l -> same_dims el r -> Forall (same_dims el) scratch -> length scratch = (k - 1)%nat ->
  tecno_eno_var k d el er scratch l r = Ok (dd, (l', r')) ->
  forall q, outcomes (fun _ => vsize el) (omp_tecno_var (vnx el) (vny el) (vnz el) k d) (tecno_mem el er l r scratch) q <->
            q = Ok (tecno_mem el er l' r' dd, []).
Proof.
  intros He Hl Hr Hs Hk H.
  assert (forall B (w : vol B), same_dims el w -> dims3 (vnx el) (vny el) (vnz el) w) as D.
  { intros B w (? & ? & ?). unfold dims3. auto. }
  pose proof (tecno_sim (vnx el) (vny el) (vnz el) k d el er scratch l r dd l' r') as S.
  specialize (S (D _ _ (same_dims_refl el)) (D _ _ He) (D _ _ Hl) (D _ _ Hr) (Forall_impl _ (D R) Hs) Hk H).
  destruct (outcomes_unique _ _ _ _ (tecno_independent _ _ _ k d) S) as [O U].
  intros q. split; [apply U|intros ->; exact O].
Qed.

(** * Examples *)

(** The semantics tells races: two iterations that write one element; or one that
    reads what another writes, as the difference loop would if it were parallel
    and stored into the array it reads. *)
Example C66_example_write_race :
  outcome (fun _ => 1) [Store 0 0 1 (Ret (X := unit) []); Store 0 0 2 (Ret [])] (fun _ _ => 0) UB.
Proof.
  eapply outcome_ub; [apply psteps_0|].
  apply (undefined_race _ _ [] _ [] _ [] true true 0 0); reflexivity.
Qed.

Definition in_place (i : Z) : prog Z unit := Fetch 0 i (fun a => Fetch 0 (i + 1) (fun b => Store 0 i (b - a) (Ret []))).
Example C66_example_in_place_race : outcome (fun _ => 3) (map in_place [0; 1]) (fun _ i => i) UB.
Proof.
  change (map in_place [0; 1]) with ([in_place 0; in_place 1]).
  eapply (outcome_ub _ _ _ 3).
  - eapply psteps_S; [apply (step_load _ _ [in_place 0] 0 1 _ []); reflexivity|].
    eapply psteps_S; [apply (step_load _ _ [in_place 0] 0 2 _ []); reflexivity|].
    eapply psteps_S; [apply (step_load _ _ [] 0 0 _ [_]); reflexivity|]. apply psteps_0.
  - cbn. apply (undefined_race _ _ [] _ [] _ [] false true 0 1); reflexivity.
Qed.

(** The hypotheses of [C66_right_hand_side] hold for the field of C04's example,
    those of [C66_memory_operations] for adding an area to itself, those of the
    ENO theorems for arrays holding rubbish. *)
Example C66_nonvacuous_flux :
  compatible small_fx small_rc 2 /\ ext 2 2 3 2 1 ex_u /\
  ext_state 2 2 3 2 1 (mkfstate ex_u ex_u ex_u ex_u (fun _ => 0%R)).
Proof. split; [split; [simpl; lia|exact I]|]. repeat split. Qed.

Example C66_nonvacuous_memory :
  let v := mkvol 3 1 1 (fun i => IZR (i + 1)) in
  exists v', mem_add v v = Ok v' /\ vdat v' 2 = 6%R.
Proof.
  eexists. split; [lazy -[Rplus IZR]; reflexivity|]. lazy -[Rplus IZR Z.add]. rewrite <- plus_IZR. reflexivity.
Qed.

Example C66_nonvacuous_eno : exists dd lr,
  eno_perform (V := scalar_cvars) 3 (fun v => v) (vload eno_u) 0 eno_u [rubbish; rubbish] eno_u eno_u
    (fun _ => 0) (fun _ => 0) = Ok (dd, lr).
Proof.
  destruct C64_hypotheses_met as (H1 & H2 & _).
  destruct (C64_history_independent scalar_cvars 1 3 8 1 1 0 3 (fun v => v) eno_u [rubbish; rubbish] [rubbish; rubbish]
    eno_u eno_u (fun _ => 0) (fun _ => 0)) as (lr & dd & _ & E & _); auto; try (simpl; lia).
  exists dd, lr. exact E.
Qed.

Definition tecno_line (f : Z -> R) : vol R := mkvol 5 1 1 f.
Example C66_nonvacuous_tecno : exists dd l' r',
  tecno_eno_var 2 0 (tecno_line (fun i => IZR (i * i))) (tecno_line (fun i => IZR i))
    [tecno_line (fun _ => 7%R)] (tecno_line (fun _ => 0%R)) (tecno_line (fun _ => 0%R)) = Ok (dd, (l', r')).
Proof.
  lazy -[Rplus Rmult Rminus Rabs Rlt_dec IZR Rdiv].
  do 3 (match goal with |- context [Rlt_dec ?a ?b] => destruct (Rlt_dec a b) end; lazy -[Rplus Rmult Rminus Rabs Rlt_dec IZR Rdiv]);
  do 3 eexists; reflexivity.
Qed.

Print Assumptions C66_independent_iterations.
Print Assumptions C66_compute_flux.
Print Assumptions C66_right_hand_side.
Print Assumptions C66_memory_operations.
Print Assumptions C66_eno.
Print Assumptions C66_tecno_eno.
