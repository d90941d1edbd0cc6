(** Properties C23-C26: the random input of the samples.

    [run_samples stream ps l g0] generates the parameters [ps] for the samples
    [l] on a freshly started process; [stream] is the sequence of uniform random
    numbers, the same on all processes. *)
From Coq Require Import String ZArith Bool Lia Reals Lra List.
From Verif Require Import M_Base L_Base M_Samples S_Samples L_Samples.
Import ListNotations.
Open Scope Z_scope.

Definition admissible (ps : list parameter) (l : list Z) : Prop :=
  (forall p, In p ps -> 0 <= plen p) /\ increasing l /\ fits_long ps l.

(** * C23: the values do not depend on the other samples of the process *)

(** With at most one parameter that draws random numbers (of any length, and
    beside any number of deterministic parameters), sample [s] gets the elements
    [s*length .. s*length + length - 1] of the sequence. *)
Theorem C23_one_source_partial stream ps l out g' :
  admissible ps l -> one_source ps ->
  run_samples stream ps l g0 = Ok (out, g') ->
  Forall2 (fun s sv => fst sv = s /\ ideal_sample stream ps s (snd sv)) l out.
Proof.
  intros (Hpl & Hinc & Hfit) H1 E.
  destruct (run_samples_ideal stream ps l g0 [] out g') as (r & -> & Hr); auto.
  - unfold synced, g0; cbn. lia.
  - intros p s l' Hp _ ->. cbn [gcount g0]. destruct Hinc as (Hs & _). specialize (Hpl p Hp). nia.
Qed.

(** Hence two processes with different sample lists generate the same values
    for a sample they have in common. *)
Theorem C23_independent_of_distribution_partial stream ps l1 l2 out1 out2 g1 g2 s v1 v2 :
  admissible ps l1 -> admissible ps l2 -> one_source ps ->
  run_samples stream ps l1 g0 = Ok (out1, g1) ->
  run_samples stream ps l2 g0 = Ok (out2, g2) ->
  In (s, v1) out1 -> In (s, v2) out2 -> v1 = v2.
Proof.
  intros A1 A2 H1 E1 E2 I1 I2.
  assert (G : forall l out g v, admissible ps l -> run_samples stream ps l g0 = Ok (out, g) ->
            In (s, v) out -> ideal_sample stream ps s v).
  { intros l out g v A E I. pose proof (C23_one_source_partial _ _ _ _ _ A H1 E) as F.
    clear -F I. induction F as [|a b l out [Ha Hb] F IH]; [contradiction|].
    destruct I as [->|I]; [|auto]. cbn in *. subst a. exact Hb. }
  eapply ideal_sample_unique; eauto.
Qed.

(** What happens with [K] drawing parameters of the same length [d] on a process
    whose samples are [s0, s0+1, ...]: parameter [k] of sample [s0 + t] takes the
    elements from [(s0 + K*t + k) * d] on. *)
Theorem C23_many_parameters stream bounds d s0 (n : nat) :
  1 <= d -> 0 <= s0 -> (1 <= length bounds)%nat -> (1 <= n)%nat ->
  (s0 + Z.of_nat n) * d < 2 ^ 63 ->
  let K := Z.of_nat (length bounds) in
  exists g', run_samples stream (many bounds d)
      (map (fun t => s0 + t) (zrange 0 (Z.of_nat n))) g0
    = Ok (map (fun t => (s0 + t, many_block stream d bounds (s0 + K * t)))
            (zrange 0 (Z.of_nat n)), g').
Proof.
  intros Hd Hs0 HK Hn Hfit K. eexists. apply many_run; auto.
Qed.

Definition stream_id : Z -> R := IZR.

(** So the full statement is false for every configuration with two or more
    drawing parameters of equal length: sample [s >= s0 >= 1] gets other numbers on a process
    starting at sample [s0] than on one starting at sample 0. *)
Theorem C23_refuted bounds d s0 s :
  1 <= d -> (2 <= length bounds)%nat -> 1 <= s0 <= s -> (s + 1) * d < 2 ^ 63 ->
  exists out0 out1 g1 g2 v0 v1,
    run_samples stream_id (many bounds d) (map (fun t => 0 + t) (zrange 0 (s + 1))) g0 = Ok (out0, g1)
    /\ run_samples stream_id (many bounds d)
         (map (fun t => s0 + t) (zrange 0 (s - s0 + 1))) g0 = Ok (out1, g2)
    /\ In (s, v0) out0 /\ In (s, v1) out1
    /\ forall p0 p1 d0 d1, nth_error v0 0 = Some p0 -> nth_error v1 0 = Some p1 ->
         nth_error p0 0 = Some d0 -> nth_error p1 0 = Some d1 -> dpos d0 <> dpos d1.
Proof.
  intros Hd HK Hs Hfit.
  set (K := Z.of_nat (length bounds)).
  destruct (C23_many_parameters stream_id bounds d 0 (Z.to_nat (s + 1))) as [g1 E1];
    try lia; try nia.
  destruct (C23_many_parameters stream_id bounds d s0 (Z.to_nat (s - s0 + 1))) as [g2 E2];
    try lia.
  rewrite Z2Nat.id in E1, E2 by lia. fold K in E1, E2.
  do 6 eexists. split; [exact E1|]. split; [exact E2|].
  split; [|split].
  - apply in_map_iff. exists s. split; [|apply zrange_In; lia]. rewrite Z.add_0_l. reflexivity.
  - apply in_map_iff. exists (s - s0). split; [|apply zrange_In; lia].
    replace (s0 + (s - s0)) with s by lia. reflexivity.
  - intros p0 p1 d0 d1 H0 H1 H2 H3.
    destruct bounds as [|b bs]; [cbn in HK; lia|].
    unfold many_block in H0, H1. cbn [List.length] in H0, H1.
    rewrite (zrange_cons 0 (Z.of_nat (S (List.length bs)))) in H0 by lia.
    rewrite (zrange_cons 0 (Z.of_nat (S (List.length bs)))) in H1 by lia.
    cbn [combine map nth_error fst snd] in H0, H1.
    injection H0 as <-. injection H1 as <-.
    rewrite (zrange_cons 0 d) in H2 by lia. rewrite (zrange_cons 0 d) in H3 by lia.
    cbn [map nth_error] in H2, H3. injection H2 as <-. injection H3 as <-. cbn [dpos].
    intros E. injection E as E.
    assert (E' : (0 + K * s + 0) * d = (s0 + K * (s - s0) + 0) * d) by lia.
    apply Z.mul_cancel_r in E'; [|lia]. assert (2 <= K) by (subst K; lia). nia.
Qed.

(** * C24: no random number is used twice *)

(** Within one process, for all parameters and all sample lists. *)
Theorem C24_within_process stream ps l out g' :
  run_samples stream ps l g0 = Ok (out, g') -> NoDup (positions out).
Proof.
  intros E. destruct (run_samples_forward stream ps l g0 out g') as (_ & _ & H & _); auto.
  unfold synced, g0; cbn. lia.
Qed.

(** Across processes, for one drawing parameter: the same element of the
    sequence means the same sample and the same component. *)
Theorem C24_across_processes_partial stream ps l1 l2 out1 out2 g1 g2 s1 s2 v1 v2 p1 p2 i1 i2 ds1 ds2 d1 d2 k :
  admissible ps l1 -> admissible ps l2 -> one_source ps ->
  run_samples stream ps l1 g0 = Ok (out1, g1) ->
  run_samples stream ps l2 g0 = Ok (out2, g2) ->
  In (s1, v1) out1 -> In (s2, v2) out2 ->
  nth_error v1 p1 = Some ds1 -> nth_error v2 p2 = Some ds2 ->
  nth_error ds1 i1 = Some d1 -> nth_error ds2 i2 = Some d2 ->
  dpos d1 = Some k -> dpos d2 = Some k ->
  s1 = s2 /\ i1 = i2 /\ nth_error ps p1 = nth_error ps p2.
Proof.
  intros A1 A2 H1 E1 E2 I1 I2 P1 P2 N1 N2 D1 D2.
  assert (G : forall l out g s v pi ds i dd, admissible ps l ->
            run_samples stream ps l g0 = Ok (out, g) ->
            In (s, v) out -> nth_error v pi = Some ds -> nth_error ds i = Some dd ->
            dpos dd = Some k ->
            exists p, nth_error ps pi = Some p /\ draws p = true
              /\ k = s * plen p + Z.of_nat i /\ 0 <= Z.of_nat i < plen p /\ 0 <= s).
  { intros l out g s v pi ds i dd A E I P N D.
    pose proof (C23_one_source_partial _ _ _ _ _ A H1 E) as F.
    assert (Hs : In s l /\ ideal_sample stream ps s v).
    { clear -F I. induction F as [|a b l out [Ha Hb] F IH]; [contradiction|].
      destruct I as [->|I].
      - cbn in *. subst a. auto.
      - destruct (IH I). split; [right|]; auto. }
    destruct Hs as [Hin Hid].
    assert (Hs0 : 0 <= s).
    { destruct A as (_ & Hinc & _). clear -Hin Hinc. induction l as [|a l IH]; [contradiction|].
      cbn in Hinc. destruct Hinc as (Ha & _ & Hl). destruct Hin as [<-|]; auto. }
    assert (Hp : exists p, nth_error ps pi = Some p /\ ideal_parameter stream s p ds).
    { unfold ideal_sample in Hid. clear -Hid P. revert pi P.
      induction Hid as [|p ds' ps v Hp Hv IH]; intros pi P.
      - destruct pi; discriminate.
      - destruct pi as [|pi]; cbn in *; [injection P as ->; eauto|eauto]. }
    destruct Hp as (p & Hp & Hlen & Hcomp). exists p. split; [exact Hp|].
    assert (Hi : (i < List.length ds)%nat) by (apply nth_error_Some; congruence).
    specialize (Hcomp (Z.of_nat i) dd ltac:(lia)). rewrite Nat2Z.id in Hcomp.
    specialize (Hcomp N). unfold ideal_component in Hcomp. unfold draws.
    destruct (pdist p).
    - destruct Hcomp as [Hpos _]. split; [reflexivity|]. split; [congruence|]. split; lia.
    - destruct Hcomp as [Hpos _]. congruence. }
  destruct (G _ _ _ _ _ _ _ _ _ A1 E1 I1 P1 N1 D1) as (q1 & Q1 & R1 & K1 & B1 & S1).
  destruct (G _ _ _ _ _ _ _ _ _ A2 E2 I2 P2 N2 D2) as (q2 & Q2 & R2 & K2 & B2 & S2).
  assert (q1 = q2).
  { eapply one_source_unique; eauto; eapply nth_error_In; eauto. }
  subst q2. assert (Es : s1 = s2) by (destruct (Z.lt_trichotomy s1 s2) as [?|[?|?]]; nia).
  split; [exact Es|]. split; [subst s2; lia|]. congruence.
Qed.

(** The full statement is false: with two or more drawing parameters of equal
    length, and at least two samples on the first of two processes, the second
    process reuses numbers of the first for other samples. *)
Theorem C24_refuted bounds d (n : nat) :
  1 <= d -> (2 <= length bounds)%nat -> (2 <= n)%nat -> 2 * Z.of_nat n * d < 2 ^ 63 ->
  exists out0 out1 g1 g2 k,
    run_samples stream_id (many bounds d) (map (fun t => 0 + t) (zrange 0 (Z.of_nat n))) g0 = Ok (out0, g1)
    /\ run_samples stream_id (many bounds d)
         (map (fun t => Z.of_nat n + t) (zrange 0 (Z.of_nat n))) g0 = Ok (out1, g2)
    /\ In k (positions out0) /\ In k (positions out1)
    /\ forall s0 s1 v0 v1, In (s0, v0) out0 -> In (s1, v1) out1 -> s0 <> s1.
Proof.
  intros Hd HK Hn Hfit.
  set (K := Z.of_nat (List.length bounds)).
  assert (HK2 : 2 <= K) by (subst K; lia).
  destruct (C23_many_parameters stream_id bounds d 0 n) as [g1 E1]; try lia; try nia.
  destruct (C23_many_parameters stream_id bounds d (Z.of_nat n) n) as [g2 E2]; try lia; try nia.
  eexists _, _, _, _, (Z.of_nat n * d). split; [exact E1|]. split; [exact E2|].
  assert (Hpos : forall b kk, 0 <= kk < K ->
            In ((b + kk) * d) (flat_map (fun ds => flat_map (fun dd => match dpos dd with Some k => [k] | None => [] end) ds)
               (many_block stream_id d bounds b))).
  { intros b kk Hkk. apply in_flat_map. unfold many_block.
    eexists. split.
    - apply in_map_iff. eexists. split; [reflexivity|].
      apply (nth_error_In _ (Z.to_nat kk)).
      instantiate (1 := (kk, nth (Z.to_nat kk) bounds (0%R, 0%R))).
      fold K. assert (L : forall (A B : Type) (l : list A) (l' : list B) i a b,
        nth_error l i = Some a -> nth_error l' i = Some b -> nth_error (combine l l') i = Some (a, b)).
      { clear. intros A B l. induction l as [|x l IH]; intros [|y l'] [|i] a b H H'; cbn in *; try discriminate.
        - congruence.
        - auto. }
      apply L.
      + pose proof (nth_error_map_zrange (fun x => x) K kk ltac:(lia)) as E. rewrite map_id in E.
        rewrite E. rewrite (proj2 (Z.ltb_lt kk K)) by lia. reflexivity.
      + apply nth_error_nth'. lia.
    - apply in_flat_map. exists (mkdrawn
        (uniform_scale (fst (nth (Z.to_nat kk) bounds (0%R, 0%R))) (snd (nth (Z.to_nat kk) bounds (0%R, 0%R)))
           (stream_id ((b + kk) * d + 0))) (Some ((b + kk) * d + 0))).
      split.
      + apply in_map_iff. exists 0. split; [reflexivity|]. apply zrange_In. lia.
      + cbn. left. lia. }
  assert (Hrange : exists t kk, 0 <= t < Z.of_nat n /\ 0 <= kk < K /\ K * t + kk = Z.of_nat n).
  { exists (Z.of_nat n / K), (Z.of_nat n mod K).
    pose proof (Z.div_mod (Z.of_nat n) K ltac:(lia)).
    pose proof (Z.mod_pos_bound (Z.of_nat n) K ltac:(lia)).
    assert (0 <= Z.of_nat n / K) by (apply Z.div_pos; lia).
    assert (Z.of_nat n / K < Z.of_nat n) by (apply Z.div_lt; lia).
    split; [lia|]. split; [lia|]. lia. }
  destruct Hrange as (t & kk & Ht & Hkk & E).
  split; [|split].
  - unfold positions. apply in_flat_map.
    exists (0 + t, many_block stream_id d bounds (0 + K * t)). split.
    + apply in_map_iff. exists t. split; [reflexivity|]. apply zrange_In. exact Ht.
    + cbn [snd]. rewrite <- E. apply (Hpos (0 + K * t) kk Hkk).
  - replace (Z.of_nat n * d) with ((Z.of_nat n + K * 0 + 0) * d) by (f_equal; lia).
    unfold positions. apply in_flat_map.
    exists (Z.of_nat n + 0, many_block stream_id d bounds (Z.of_nat n + K * 0)). split.
    + apply in_map_iff. exists 0. split; [reflexivity|]. apply zrange_In. lia.
    + cbn [snd]. apply Hpos. lia.
  - intros s0 s1 v0 v1 I0 I1.
    apply in_map_iff in I0. destruct I0 as (t0 & T0 & J0). apply zrange_In in J0.
    apply in_map_iff in I1. destruct I1 as (t1 & T1 & J1). apply zrange_In in J1.
    injection T0 as <- _. injection T1 as <- _. lia.
Qed.

(** A process with the samples 2 and 3, one random parameter of length 2 and one
    deterministic parameter. *)
Definition example_ps : list parameter :=
  [mkparam 2 (DUniform 0 1); mkparam 1 (uniform1d 4 0 1)].

Example C23_nonvacuous :
  admissible example_ps [2; 3] /\ one_source example_ps
  /\ exists g' out, run_samples stream_id example_ps [2; 3] g0 = Ok (out, g')
       /\ positions out = [4; 5; 6; 7].
Proof.
  split; [|split].
  - split; [|split].
    + intros p [<-|[<-|[]]]; cbn; lia.
    + cbn. lia.
    + intros p s [<-|[<-|[]]] [<-|[<-|[]]] H; cbn in *; lia.
  - unfold one_source; cbn. lia.
  - do 2 eexists. split.
    + lazy -[Rplus Rmult Rminus Rdiv Rinv IZR uniform_scale uniform1d_delta]. reflexivity.
    + lazy. reflexivity.
Qed.

(** * C25: bounds of a uniform parameter *)

(** A stream of numbers in [0,1), as the C++ standard requires of
    std::uniform_real_distribution. *)
Definition unit_stream (stream : Z -> R) : Prop := forall k, (0 <= stream k < 1)%R.

(** Every value the distribution object produces, whatever the state of the
    generator, is the affine image of one number of the stream and lies in its
    bounds. *)
Theorem C25_uniform_in_bounds_partial stream lower upper n s g ds g' :
  unit_stream stream -> (lower <= upper)%R ->
  generate_parameter stream (mkparam n (DUniform lower upper)) s g = Ok (ds, g') ->
  Z.of_nat (List.length ds) = Z.max 0 n
  /\ Forall (fun d => (lower <= dval d <= upper)%R
       /\ exists k, dpos d = Some k /\ dval d = (lower + (upper - lower) * stream k)%R) ds.
Proof.
  intros Hu Hb E. unfold generate_parameter, for_ in E; cbn [plen pdist] in E.
  assert (G : forall l acc g, fold_res (fun (i : Z) lg =>
      dg <- dist_generate stream (DUniform lower upper) n i s (snd lg);;
      Ok (fst lg ++ [fst dg], snd dg)) l (acc, g) = Ok (ds, g') ->
      exists r, ds = acc ++ r /\ List.length r = List.length l
       /\ Forall (fun d => (lower <= dval d <= upper)%R
       /\ exists k, dpos d = Some k /\ dval d = (lower + (upper - lower) * stream k)%R) r).
  { clear E g. induction l as [|i l IH]; intros acc g E; cbn [fold_res] in E.
    - injection E as <- <-. exists []. rewrite app_nil_r. auto.
    - cbn [snd dist_generate] in E.
      destruct (mersenne_generate n i s g) as [[k g1]| |]; cbn [bind fst snd] in E; try discriminate.
      destruct (IH _ _ E) as (r & -> & L & F).
      eexists. rewrite <- app_assoc. split; [reflexivity|]. split; [cbn; congruence|].
      constructor; [|exact F]. cbn [dval dpos]. rewrite scale_affine.
      specialize (Hu k). split; [|eauto].
      assert (0 <= (upper - lower) * stream k <= (upper - lower) * 1)%R.
      { split; [apply Rmult_le_pos; lra|apply Rmult_le_compat_l; lra]. }
      lra. }
  destruct (G _ _ _ E) as (r & -> & L & F). cbn [app]. split; [|exact F].
  rewrite L, zrange_length. lia.
Qed.

(** A distribution created from parameters that contain the bounds uses them. *)
Theorem C25_factory_reads_bounds t lower upper :
  t "lower"%string = Some lower -> t "upper"%string = Some upper ->
  create_uniform t = Ok (DUniform lower upper).
Proof. intros H1 H2. unfold create_uniform, get_double. rewrite H1, H2. reflexivity. Qed.

(** But Setup overwrites whatever bounds the configuration contains: the
    distribution is always uniform on [0,1), so a configuration asking for
    [2,3] never gets a value in there. *)
Theorem C25_refuted :
  (forall node, create_uniform (setup_parameters node) = Ok (DUniform 0 1))
  /\ exists node lower upper,
       node "lower"%string = Some lower /\ node "upper"%string = Some upper /\ (lower < upper)%R
       /\ forall stream d n s g ds g', unit_stream stream ->
            create_uniform (setup_parameters node) = Ok d ->
            generate_parameter stream (mkparam n d) s g = Ok (ds, g') ->
            forall v, In v ds -> ~ (lower <= dval v <= upper)%R.
Proof.
  assert (A : forall node, create_uniform (setup_parameters node) = Ok (DUniform 0 1)) by reflexivity.
  split; [exact A|].
  exists (put "upper" 3%R (put "lower" 2%R (fun _ => None))), 2%R, 3%R.
  split; [reflexivity|]. split; [reflexivity|]. split; [lra|].
  intros stream d n s g ds g' Hu Ed E v Hv [H1 H2].
  rewrite A in Ed. injection Ed as <-.
  destruct (C25_uniform_in_bounds_partial stream 0 1 n s g ds g' Hu ltac:(lra) E) as [_ F].
  rewrite Forall_forall in F. destruct (F v Hv) as [B _]. lra.
Qed.

Example C25_nonvacuous :
  unit_stream (fun _ => / 2)%R
  /\ exists ds g', generate_parameter (fun _ => / 2)%R (mkparam 2 (DUniform 2 4)) 5 g0 = Ok (ds, g')
     /\ map dval ds = [3; 3]%R.
Proof.
  split; [intros k; lra|].
  do 2 eexists. split.
  - lazy -[Rplus Rmult Rminus Rdiv Rinv IZR uniform_scale]. reflexivity.
  - cbn [map dval]. unfold uniform_scale.
    assert (E : (/ 2 * (4 - 2) + 2 = 3)%R) by field. rewrite E. reflexivity.
Qed.

(** * C26: uniform1d *)

(** The value of sample [i] of [M] samples. *)
Definition u1d (M : Z) (a b : R) (i : Z) : res R :=
  match uniform1d M a b with
  | DFunction f => f 0 i
  | DUniform _ _ => Throw
  end.

(** Sum of a list of reals. *)
Definition rsum (l : list R) : R := fold_right Rplus 0%R l.

Lemma u1d_val M a b i : u1d M a b i = Ok (a + (b - a) / IZR M * (IZR i + / 2))%R.
Proof. reflexivity. Qed.

(** Samples [0 .. M-1]: the value of sample [i] is the midpoint of the [i]-th of
    [M] equal parts, strictly inside [a,b]; neighbours are [(b-a)/M] apart; the
    mean is the centre. *)
Theorem C26_midpoints_partial M a b :
  1 <= M -> (a < b)%R ->
  exists v : Z -> R,
    (forall i, u1d M a b i = Ok (v i))
    /\ (forall i, 0 <= i < M ->
         v i = (((a + (b - a) * (IZR i / IZR M)) + (a + (b - a) * (IZR (i + 1)%Z / IZR M))) / 2)%R
         /\ (a < v i < b)%R)
    /\ (forall i, (v (i + 1)%Z - v i = (b - a) / IZR M)%R)
    /\ (rsum (map v (zrange 0 M)) / IZR M = (a + b) / 2)%R.
Proof.
  intros HM Hab. assert (HMr : (1 <= IZR M)%R) by (apply IZR_le; exact HM).
  exists (fun i => (a + (b - a) / IZR M * (IZR i + / 2))%R).
  split; [intros; reflexivity|]. split; [|split].
  - intros i Hi. split.
    + rewrite plus_IZR. field. lra.
    + assert (0 <= IZR i)%R by (apply IZR_le; lia).
      assert (IZR i + 1 <= IZR M)%R by (rewrite <- plus_IZR; apply IZR_le; lia).
      assert (Hd : (0 < (b - a) / IZR M)%R) by (apply Rdiv_lt_0_compat; lra).
      assert (Hd2 : ((b - a) / IZR M * IZR M = b - a)%R) by (field; lra).
      split.
      * assert (0 < (b - a) / IZR M * (IZR i + / 2))%R by (apply Rmult_lt_0_compat; lra). lra.
      * assert ((b - a) / IZR M * (IZR i + / 2) < (b - a) / IZR M * IZR M)%R
          by (apply Rmult_lt_compat_l; lra). lra.
  - intros i. rewrite plus_IZR. field. lra.
  - assert (G : forall k : nat,
      rsum (map (fun i => (a + (b - a) / IZR M * (IZR i + / 2))%R) (zrange 0 (Z.of_nat k)))
      = (INR k * a + (b - a) / IZR M * (INR k * INR k / 2))%R).
    { induction k as [|k IH].
      - rewrite zrange_empty by lia. cbn. lra.
      - replace (Z.of_nat (S k)) with (Z.of_nat k + 1) by lia.
        rewrite zrange_snoc by lia. rewrite map_app.
        assert (A : forall u w, rsum (u ++ [w]) = (rsum u + w)%R).
        { clear. induction u as [|x u IHu]; intros w; cbn; [lra|].
          unfold rsum in IHu. rewrite IHu. lra. }
        cbn [map]. rewrite A, IH. rewrite S_INR, <- INR_IZR_INZ. field. lra. }
    specialize (G (Z.to_nat M)). rewrite Z2Nat.id in G by lia. rewrite G.
    rewrite INR_IZR_INZ, Z2Nat.id by lia. field. lra.
Qed.

(** The full statement is false: the start of the sampling (Setup.cpp lines
    304-313) is not subtracted, so with a start [s0 > 0] the [M] values lie
    [s0 * (b-a)/M] too far right, their mean is off and the last ones lie
    outside [a,b]. *)
Theorem C26_refuted M a b s0 :
  1 <= M -> 1 <= s0 -> (a < b)%R ->
  exists v : Z -> R,
    (forall i, u1d M a b (s0 + i) = Ok (v i))
    /\ (b < v (M - 1)%Z)%R
    /\ (rsum (map v (zrange 0 M)) / IZR M = (a + b) / 2 + IZR s0 * ((b - a) / IZR M))%R.
Proof.
  intros HM Hs Hab.
  destruct (C26_midpoints_partial M a b HM Hab) as (v & Hv & _ & _ & Hmean).
  assert (HMr : (1 <= IZR M)%R) by (apply IZR_le; exact HM).
  assert (Hsr : (1 <= IZR s0)%R) by (apply IZR_le; exact Hs).
  assert (Hd : (0 < (b - a) / IZR M)%R) by (apply Rdiv_lt_0_compat; lra).
  exists (fun i => (v i + IZR s0 * ((b - a) / IZR M))%R).
  assert (Ev : forall i, v i = (a + (b - a) / IZR M * (IZR i + / 2))%R).
  { intros i. specialize (Hv i). rewrite u1d_val in Hv. congruence. }
  split; [|split].
  - intros i. rewrite u1d_val, Ev, plus_IZR. f_equal. ring.
  - rewrite Ev, minus_IZR.
    replace (a + (b - a) / IZR M * (IZR M - 1 + / 2) + IZR s0 * ((b - a) / IZR M))%R
      with (b + (b - a) / IZR M * (IZR s0 - / 2))%R by (field; lra).
    assert (0 < (b - a) / IZR M * (IZR s0 - / 2))%R by (apply Rmult_lt_0_compat; lra). lra.
  - rewrite <- Hmean.
    assert (G : forall c l, rsum (map (fun i => (v i + c)%R) l) = (rsum (map v l) + INR (List.length l) * c)%R).
    { clear. induction l as [|x l IH]; cbn [map rsum fold_right List.length]; [cbn; lra|].
      unfold rsum in IH. rewrite IH, S_INR. unfold rsum. ring. }
    rewrite G, zrange_length, INR_IZR_INZ, Z2Nat.id by lia. rewrite Z.sub_0_r. field. lra.
Qed.

(** And the interval is always [0,1]: bounds in the configuration are
    overwritten. *)
Theorem C26_configured_interval_refuted M :
  forall node, create_uniform1d M (setup_parameters node) = Ok (uniform1d M 0 1).
Proof. reflexivity. Qed.

Example C26_nonvacuous : map (u1d 2 0 4) [0; 1] = [Ok 1; Ok 3]%R.
Proof.
  cbn [map]. rewrite !u1d_val.
  assert (E1 : (0 + (4 - 0) / 2 * (0 + / 2) = 1)%R) by field.
  assert (E2 : (0 + (4 - 0) / 2 * (1 + / 2) = 3)%R) by field.
  rewrite E1, E2. reflexivity.
Qed.

Print Assumptions C23_one_source_partial.
Print Assumptions C23_independent_of_distribution_partial.
Print Assumptions C23_many_parameters.
Print Assumptions C23_refuted.
Print Assumptions C24_within_process.
Print Assumptions C24_across_processes_partial.
Print Assumptions C24_refuted.
Print Assumptions C25_uniform_in_bounds_partial.
Print Assumptions C25_factory_reads_bounds.
Print Assumptions C25_refuted.
Print Assumptions C26_midpoints_partial.
Print Assumptions C26_refuted.
Print Assumptions C26_configured_interval_refuted.
