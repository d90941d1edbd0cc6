(** Lemmas on sample generation. *)
From Coq Require Import ZArith List Bool Lia Reals Lra.
From Verif Require Import M_Base L_Base M_Samples S_Samples.
Import ListNotations.
Open Scope Z_scope.

Definition synced (g : gstate) : Prop := gpos g = gcount g /\ 0 <= gcount g.

Lemma long_ok_true z : - 2 ^ 63 <= z < 2 ^ 63 -> long_ok z = true.
Proof.
  intros H. unfold long_ok.
  rewrite (proj2 (Z.leb_le (- 2 ^ 63) z)) by lia.
  rewrite (proj2 (Z.ltb_lt z (2 ^ 63))) by lia. reflexivity.
Qed.

Lemma quot_lt_iff c d s : 0 <= c -> 0 < d -> Z.quot c d < s <-> c < s * d.
Proof.
  intros Hc Hd. rewrite Z.quot_div_nonneg by lia. split; intros H.
  - pose proof (Z.div_mod c d ltac:(lia)). pose proof (Z.mod_pos_bound c d Hd). nia.
  - apply Z.div_lt_upper_bound; lia.
Qed.

(** What one call of the generator does, in general. *)
Lemma mersenne_cases dim i s g k g' :
  synced g -> mersenne_generate dim i s g = Ok (k, g') -> 0 <= i ->
  i < dim /\ gcount g <= k /\ g' = mkg (k + 1) (k + 1).
Proof.
  intros [Hs Hc] E Hi. unfold mersenne_generate in E.
  destruct (dim <=? i) eqn:Ed; [discriminate|]. apply Z.leb_gt in Ed.
  destruct (Z.quot (gcount g) dim <? s) eqn:E1.
  - apply Z.ltb_lt in E1. apply quot_lt_iff in E1; [|lia|lia].
    destruct (long_ok (s * dim)); cbn [bind] in E; [|discriminate].
    unfold discard in E; cbn [gpos gcount] in E.
    destruct (Z.rem (gcount g + (s * dim - gcount g)) dim <? i) eqn:E2.
    + apply Z.ltb_lt in E2. cbn [gpos gcount] in E. injection E as <- <-.
      split; [lia|]. split; [lia|]. f_equal; lia.
    + cbn [gpos gcount] in E. injection E as <- <-.
      split; [lia|]. split; [lia|]. f_equal; lia.
  - cbn [bind] in E. destruct (Z.rem (gcount g) dim <? i) eqn:E2.
    + apply Z.ltb_lt in E2. unfold discard in E; cbn [gpos gcount] in E. injection E as <- <-.
      split; [lia|]. split; [lia|]. f_equal; lia.
    + injection E as <- <-. split; [lia|]. split; [lia|]. f_equal; lia.
Qed.

(** The next position is [k] when the counter stands at [k] already and the
    sample is not ahead of it. *)
Lemma mersenne_at dim i s g :
  synced g -> 0 <= i < dim -> s * dim <= gcount g -> Z.rem (gcount g) dim = i ->
  mersenne_generate dim i s g = Ok (gcount g, mkg (gcount g + 1) (gcount g + 1)).
Proof.
  intros [Hs Hc] Hi Hle Hrem. unfold mersenne_generate.
  rewrite (proj2 (Z.leb_gt dim i)) by lia.
  destruct (Z.quot (gcount g) dim <? s) eqn:E1.
  { apply Z.ltb_lt in E1. apply quot_lt_iff in E1; lia. }
  cbn [bind]. rewrite Hrem, Z.ltb_irrefl. rewrite Hs. reflexivity.
Qed.

Lemma mersenne_first dim s g :
  synced g -> 0 < dim -> 0 <= s -> gcount g <= s * dim -> s * dim < 2 ^ 63 ->
  mersenne_generate dim 0 s g = Ok (s * dim, mkg (s * dim + 1) (s * dim + 1)).
Proof.
  intros [Hs Hc] Hd Hs0 Hle Hfit. unfold mersenne_generate.
  rewrite (proj2 (Z.leb_gt dim 0)) by lia.
  destruct (Z.quot (gcount g) dim <? s) eqn:E1.
  - rewrite long_ok_true by lia. cbn [bind]. unfold discard; cbn [gpos gcount].
    replace (gcount g + (s * dim - gcount g)) with (s * dim) by lia.
    replace (gpos g + (s * dim - gcount g)) with (s * dim) by lia.
    rewrite Z.rem_mul by lia. reflexivity.
  - apply Z.ltb_ge in E1.
    assert (~ gcount g < s * dim).
    { rewrite <- quot_lt_iff by lia. lia. }
    assert (E : gcount g = s * dim) by lia.
    cbn [bind]. rewrite E, Z.rem_mul by lia. cbn [Z.ltb Z.compare]. rewrite Hs, E. reflexivity.
Qed.

Lemma rem_offset s d i : 0 <= s -> 0 <= i < d -> Z.rem (s * d + i) d = i.
Proof.
  intros Hs Hi. rewrite Z.rem_mod_nonneg by nia.
  rewrite Z.add_comm, Z.mod_add by lia. apply Z.mod_small. lia.
Qed.

Lemma scale_affine lo hi x : uniform_scale lo hi x = (lo + (hi - lo) * x)%R.
Proof. unfold uniform_scale. ring. Qed.

(** The drawing parameter whose first component lands on position [b], a
    multiple of its length: it takes the positions from [b] on. *)
Lemma generate_uniform_block stream lo hi n s g b :
  synced g -> 0 < n -> 0 <= s -> 0 <= b ->
  (gcount g = b * n \/ gcount g <= s * n /\ b = s) -> s <= b -> s * n < 2 ^ 63 ->
  generate_parameter stream (mkparam n (DUniform lo hi)) s g
  = Ok (map (fun i => mkdrawn (uniform_scale lo hi (stream (b * n + i))) (Some (b * n + i)))
          (zrange 0 n), mkg ((b + 1) * n) ((b + 1) * n)).
Proof.
  intros Hg Hn Hs Hb Hcase Hsb Hfit. unfold generate_parameter, for_; cbn [plen pdist].
  assert (G : forall k : nat, (1 <= k)%nat -> Z.of_nat k <= n ->
    fold_res (fun i lg =>
      dg <- dist_generate stream (DUniform lo hi) n i s (snd lg);;
      Ok (fst lg ++ [fst dg], snd dg)) (zrange 0 (Z.of_nat k)) ([], g)
    = Ok (map (fun i => mkdrawn (uniform_scale lo hi (stream (b * n + i))) (Some (b * n + i)))
          (zrange 0 (Z.of_nat k)), mkg (b * n + Z.of_nat k) (b * n + Z.of_nat k))).
  { induction k as [|k IH]; intros H1 Hk; [lia|].
    replace (Z.of_nat (S k)) with (Z.of_nat k + 1) by lia.
    rewrite zrange_snoc by lia. rewrite fold_res_app, map_app.
    destruct k as [|k].
    - rewrite (zrange_empty 0 (Z.of_nat 0)) by lia. cbn [fold_res bind map app snd fst Z.of_nat].
      unfold dist_generate.
      assert (E : mersenne_generate n 0 s g = Ok (b * n, mkg (b * n + 1) (b * n + 1))).
      { destruct Hcase as [E|[Hle ->]].
        - rewrite mersenne_at; try assumption; try lia.
          + rewrite E. reflexivity.
          + rewrite E. nia.
          + rewrite E, Z.rem_mul by lia. reflexivity.
        - apply mersenne_first; auto. }
      rewrite E. cbn [bind fst snd]. rewrite Z.add_0_r. reflexivity.
    - rewrite IH by lia. cbn [bind fold_res snd fst map].
      unfold dist_generate.
      rewrite mersenne_at; cbn [gcount gpos].
      + cbn [bind fst snd]. f_equal. f_equal. f_equal; lia.
      + unfold synced; cbn [gcount gpos]. split; [reflexivity|nia].
      + lia.
      + nia.
      + apply rem_offset; lia. }
  replace n with (Z.of_nat (Z.to_nat n)) at 1 by lia.
  assert (En : Z.of_nat (Z.to_nat n) = n) by lia.
  specialize (G (Z.to_nat n) ltac:(lia) ltac:(lia)). rewrite En in G.
  rewrite En, G. f_equal. f_equal. f_equal; ring.
Qed.

Lemma nth_error_map_zrange {A} (f : Z -> A) n i :
  0 <= i -> nth_error (map f (zrange 0 n)) (Z.to_nat i) = if i <? n then Some (f i) else None.
Proof.
  intros Hi. destruct (i <? n) eqn:E.
  - apply Z.ltb_lt in E. rewrite nth_error_map. unfold zrange.
    rewrite nth_error_map. rewrite (nth_error_nth' _ 0%nat) by (rewrite seq_length; lia).
    cbn [option_map]. rewrite seq_nth by lia. f_equal. f_equal. lia.
  - apply Z.ltb_ge in E. apply nth_error_None. rewrite map_length, zrange_length. lia.
Qed.

Lemma Forall2_len {A B} (P : A -> B -> Prop) l l' : Forall2 P l l' -> length l = length l'.
Proof. induction 1; cbn; congruence. Qed.

(** One parameter. *)
Lemma generate_parameter_ideal stream p s g ds g' :
  synced g -> 0 <= s -> (draws p = true -> s * plen p < 2 ^ 63 /\ gcount g <= s * plen p) ->
  generate_parameter stream p s g = Ok (ds, g') ->
  ideal_parameter stream s p ds /\ synced g'
  /\ (draws p = false -> g' = g)
  /\ (draws p = true -> g' = g \/ gcount g' = (s + 1) * plen p).
Proof.
  destruct p as [n d]. unfold draws; cbn [plen pdist]. intros Hg Hs Hle E.
  destruct d as [lo hi|f].
  - destruct (Hle eq_refl) as [Hfit Hle'].
    destruct (Z_lt_le_dec 0 n) as [Hn|Hn].
    + rewrite (generate_uniform_block stream lo hi n s g s) in E; auto; try lia.
      injection E as <- <-. split; [|split; [|split]].
      * split; cbn [plen].
        -- rewrite map_length, zrange_length. lia.
        -- intros i d Hi H. rewrite nth_error_map_zrange in H by exact Hi.
           destruct (i <? n); [|discriminate]. injection H as <-.
           unfold ideal_component; cbn [pdist plen dpos dval].
           split; [reflexivity|apply scale_affine].
      * unfold synced; cbn. split; [reflexivity|nia].
      * discriminate.
      * intros _. right. reflexivity.
    + unfold generate_parameter, for_ in E; cbn [plen] in E.
      rewrite zrange_empty in E by lia. cbn in E. injection E as <- <-.
      split; [|auto]. split; cbn [length plen]; [lia|].
      intros i d _ H. destruct (Z.to_nat i); discriminate.
  - unfold generate_parameter, for_ in E; cbn [plen pdist dist_generate] in E.
    assert (G : forall l acc, fold_res (fun (i : Z) lg =>
        dg <- v <- f i s;; Ok (mkdrawn v None, snd lg);;
        Ok (fst lg ++ [fst dg], snd dg)) l (acc, g) = Ok (ds, g') ->
        g' = g /\ exists r, ds = acc ++ r
        /\ Forall2 (fun i d => dpos d = None /\ f i s = Ok (dval d)) l r).
    { induction l as [|i l IH]; intros acc H; cbn [fold_res] in H.
      - injection H as <- <-. split; [reflexivity|]. exists []. now rewrite app_nil_r.
      - cbn [snd] in H. destruct (f i s) as [v| |] eqn:Ef; cbn [bind fst snd] in H; try discriminate.
        destruct (IH _ H) as (-> & r & -> & Hr). split; [reflexivity|].
        exists (mkdrawn v None :: r). rewrite <- app_assoc. split; [reflexivity|].
        constructor; auto. }
    destruct (G _ _ E) as (-> & r & -> & Hr). cbn [app].
    split; [|auto]. split; cbn [plen].
    + rewrite <- (Forall2_len _ _ _ Hr), zrange_length. lia.
    + intros i d Hi H. unfold ideal_component; cbn [pdist].
      assert (Hl : length (zrange 0 n) = length r) by exact (Forall2_len _ _ _ Hr).
      assert (Hin : exists j, nth_error (zrange 0 n) (Z.to_nat i) = Some j /\ dpos d = None /\ f j s = Ok (dval d)).
      { clear -Hr H. revert H. generalize (Z.to_nat i) as k. induction Hr as [|a b l1 l2 Hab Hl IH]; intros k H.
        - destruct k; discriminate.
        - destruct k as [|k]; cbn in *; [injection H as <-; eauto|eauto]. }
      destruct Hin as (j & Hj & H1 & H2). split; [exact H1|].
      pose proof (nth_error_map_zrange (fun x => x) n i Hi) as E2.
      rewrite map_id in E2. rewrite E2 in Hj.
      destruct (i <? n); [|discriminate]. injection Hj as <-. exact H2.
Qed.

(** The drawing parameters of one sample: at most one. *)
Definition one_source (ps : list parameter) : Prop := (length (filter draws ps) <= 1)%nat.

Lemma generate_sample_ideal stream ps s g acc out g' :
  synced g -> 0 <= s -> one_source ps ->
  (forall p, In p ps -> draws p = true -> s * plen p < 2 ^ 63 /\ gcount g <= s * plen p) ->
  fold_res (fun p lg =>
    dg <- generate_parameter stream p s (snd lg);;
    Ok (fst lg ++ [fst dg], snd dg)) ps (acc, g) = Ok (out, g') ->
  exists r, out = acc ++ r /\ ideal_sample stream ps s r /\ synced g'
  /\ (g' = g \/ exists p, In p ps /\ draws p = true /\ gcount g' = (s + 1) * plen p).
Proof.
  revert g acc. induction ps as [|p ps IH]; intros g acc Hg Hs H1 Hall E; cbn [fold_res] in E.
  - injection E as <- <-. exists []. rewrite app_nil_r. split; [reflexivity|].
    split; [constructor|]. split; [exact Hg|auto].
  - cbn [snd] in E.
    destruct (generate_parameter stream p s g) as [[ds g1]| |] eqn:Ep; cbn [bind] in E; try discriminate.
    cbn [fst snd] in E.
    destruct (generate_parameter_ideal stream p s g ds g1) as (Hi & Hg1 & Hn & Hy); auto.
    { intros Hd. apply Hall; cbn; auto. }
    destruct (draws p) eqn:Ed.
    + assert (Hno : forall q, In q ps -> draws q = false).
      { intros q Hq. unfold one_source in H1. cbn [filter] in H1. rewrite Ed in H1. cbn in H1.
        destruct (draws q) eqn:Eq; [|reflexivity].
        assert (In q (filter draws ps)) by (apply filter_In; auto).
        destruct (filter draws ps); [contradiction|cbn in H1; lia]. }
      destruct (IH g1 (acc ++ [ds]) Hg1 Hs) as (r & -> & Hr & Hg' & Hc).
      * unfold one_source in *. cbn [filter] in H1. rewrite Ed in H1. cbn in H1. lia.
      * intros q Hq Hdq. rewrite (Hno q Hq) in Hdq. discriminate.
      * exact E.
      * exists (ds :: r). rewrite <- app_assoc. split; [reflexivity|].
        split; [constructor; auto|]. split; [exact Hg'|].
        destruct Hc as [->|(q & Hq & Hdq & _)].
        -- destruct (Hy eq_refl) as [->|Hc]; [auto|].
           right. exists p. cbn. auto.
        -- rewrite (Hno q Hq) in Hdq. discriminate.
    + rewrite (Hn eq_refl) in *.
      destruct (IH g (acc ++ [ds]) Hg Hs) as (r & -> & Hr & Hg' & Hc).
      * unfold one_source in *. cbn [filter] in H1. rewrite Ed in H1. exact H1.
      * intros q Hq. apply Hall. cbn. auto.
      * exact E.
      * exists (ds :: r). rewrite <- app_assoc. split; [reflexivity|].
        split; [constructor; auto|]. split; [exact Hg'|].
        destruct Hc as [->|(q & Hq & Hdq & Hc)]; [auto|].
        right. exists q. cbn. auto.
Qed.

Lemma one_source_unique ps p q :
  one_source ps -> In p ps -> In q ps -> draws p = true -> draws q = true -> p = q.
Proof.
  intros H Hp Hq Dp Dq. unfold one_source in H.
  assert (A : In p (filter draws ps)) by (apply filter_In; auto).
  assert (B : In q (filter draws ps)) by (apply filter_In; auto).
  destruct (filter draws ps) as [|a [|b l]]; cbn in *; try lia; intuition congruence.
Qed.

(** All samples of a process. *)
Lemma run_samples_ideal stream ps l g acc out g' :
  synced g -> one_source ps -> increasing l -> fits_long ps l ->
  (forall p, In p ps -> 0 <= plen p) ->
  (forall p s l', In p ps -> draws p = true -> l = s :: l' -> gcount g <= s * plen p) ->
  fold_res (fun s lg =>
    dg <- generate_sample stream ps s (snd lg);;
    Ok (fst lg ++ [(s, fst dg)], snd dg)) l (acc, g) = Ok (out, g') ->
  exists r, out = acc ++ r
    /\ Forall2 (fun s sv => fst sv = s /\ ideal_sample stream ps s (snd sv)) l r.
Proof.
  revert g acc. induction l as [|s l IH]; intros g acc Hg H1 Hinc Hfit Hpl Hall E; cbn [fold_res] in E.
  - injection E as <- <-. exists []. rewrite app_nil_r. auto.
  - cbn [snd] in E. unfold generate_sample at 1 in E.
    destruct (fold_res _ ps ([], g)) as [[v g1]| |] eqn:Ep; cbn [bind] in E; try discriminate.
    cbn [fst snd] in E. destruct Hinc as (Hs & Hnext & Hinc).
    destruct (generate_sample_ideal stream ps s g [] v g1) as (r & Er & Hr & Hg1 & Hc); auto.
    { intros p Hp Hd. split; [apply Hfit; cbn; auto|eapply Hall; eauto]. }
    cbn [app] in Er. subst v.
    destruct (IH g1 (acc ++ [(s, r)]) Hg1 H1 Hinc) as (r' & -> & Hr').
    + intros p s' Hp Hs'. apply Hfit; cbn; auto.
    + exact Hpl.
    + intros p s' l' Hp Hd ->. specialize (Hpl p Hp).
      destruct Hc as [->|(q & Hq & Hdq & Hc)].
      * specialize (Hall p s _ Hp Hd eq_refl). nia.
      * rewrite (one_source_unique ps q p) in Hc by auto. rewrite Hc. nia.
    + exact E.
    + exists ((s, r) :: r'). rewrite <- app_assoc. split; [reflexivity|].
      constructor; auto.
Qed.

(** Within one process the sequence is only ever read forwards. *)
Definition forward (g : gstate) (l : list Z) (g' : gstate) : Prop :=
  synced g' /\ gcount g <= gcount g' /\ NoDup l /\ forall k, In k l -> gcount g <= k < gcount g'.

Lemma forward_nil g : synced g -> forward g [] g.
Proof.
  intros H. split; [exact H|]. split; [lia|]. split; [constructor|]. intros k [].
Qed.

Lemma NoDup_app_disjoint {A} (l l' : list A) :
  NoDup l -> NoDup l' -> (forall x, In x l -> ~ In x l') -> NoDup (l ++ l').
Proof.
  intros H H' Hd. induction H as [|x l Hx Hl IH]; [exact H'|].
  cbn. constructor.
  - rewrite in_app_iff. intros [?|?]; [auto|]. apply (Hd x); cbn; auto.
  - apply IH. intros y Hy. apply Hd. cbn; auto.
Qed.

Lemma forward_app g l g1 l' g2 : forward g l g1 -> forward g1 l' g2 -> forward g (l ++ l') g2.
Proof.
  intros (A1 & A2 & A3 & A4) (B1 & B2 & B3 & B4).
  split; [exact B1|]. split; [lia|]. split.
  - apply NoDup_app_disjoint; auto. intros x Hx Hx'. specialize (A4 x Hx). specialize (B4 x Hx'). lia.
  - intros k Hk. apply in_app_iff in Hk. destruct Hk as [Hk|Hk].
    + specialize (A4 k Hk). lia.
    + specialize (B4 k Hk). lia.
Qed.

(** The same for a loop that appends items. *)
Lemma forward_loop {I A} (pos : A -> list Z) (step : I -> gstate -> res (A * gstate)) l g acc out g' :
  synced g ->
  (forall i g a g', In i l -> synced g -> step i g = Ok (a, g') -> forward g (pos a) g') ->
  fold_res (fun i lg => dg <- step i (snd lg);; Ok (fst lg ++ [fst dg], snd dg)) l (acc, g)
  = Ok (out, g') ->
  exists r, out = acc ++ r /\ forward g (flat_map pos r) g'.
Proof.
  revert g acc. induction l as [|i l IH]; intros g acc Hg Hstep E; cbn [fold_res] in E.
  - injection E as <- <-. exists []. rewrite app_nil_r. split; [reflexivity|].
    apply forward_nil. exact Hg.
  - cbn [snd] in E. destruct (step i g) as [[a g1]| |] eqn:Es; cbn [bind] in E; try discriminate.
    cbn [fst snd] in E. pose proof (Hstep i g a g1 (or_introl eq_refl) Hg Es) as Hf.
    destruct (IH g1 (acc ++ [a])) as (r & -> & Hr).
    + apply Hf.
    + intros; eapply Hstep; cbn; eauto.
    + exact E.
    + exists (a :: r). rewrite <- app_assoc. split; [reflexivity|].
      cbn [flat_map]. eapply forward_app; eauto.
Qed.

Definition pos1 (d : drawn) : list Z := match dpos d with Some k => [k] | None => [] end.

Lemma dist_forward stream d n i s g a g' :
  synced g -> 0 <= i -> dist_generate stream d n i s g = Ok (a, g') -> forward g (pos1 a) g'.
Proof.
  intros Hg Hi E. destruct d as [lo hi|f]; cbn [dist_generate] in E.
  - destruct (mersenne_generate n i s g) as [[k g1]| |] eqn:Em; cbn [bind] in E; try discriminate.
    cbn [fst snd] in E. injection E as <- <-.
    destruct (mersenne_cases n i s g k g1 Hg Em Hi) as (_ & Hle & ->).
    destruct Hg as [_ Hc].
    split; [unfold synced; cbn; split; [reflexivity|lia]|].
    cbn [gcount pos1 dpos]. split; [lia|]. split; [repeat constructor; intros []|].
    intros x [<-|[]]. lia.
  - destruct (f i s) as [v| |]; cbn [bind] in E; try discriminate.
    injection E as <- <-. apply forward_nil. exact Hg.
Qed.

Lemma run_samples_forward stream ps l g out g' :
  synced g -> run_samples stream ps l g = Ok (out, g') -> forward g (positions out) g'.
Proof.
  intros Hg E. unfold run_samples in E.
  set (pos2 := fun ds : list drawn => flat_map pos1 ds).
  set (pos3 := fun v : list (list drawn) => flat_map pos2 v).
  destruct (forward_loop (fun sv : Z * list (list drawn) => pos3 (snd sv))
    (fun s g => dg <- generate_sample stream ps s g;; Ok ((s, fst dg), snd dg)) l g [] out g' Hg)
    as (r & -> & Hr).
  - intros s g1 a g2 _ Hg1 E1.
    destruct (generate_sample stream ps s g1) as [[v g3]| |] eqn:Ev; cbn [bind] in E1; try discriminate.
    cbn [fst snd] in E1. injection E1 as <- <-. cbn [snd].
    unfold generate_sample in Ev.
    destruct (forward_loop pos2 (fun p g => generate_parameter stream p s g) ps g1 [] v g3 Hg1)
      as (r & -> & Hr).
    + intros p g4 ds g5 _ Hg4 Ep. unfold generate_parameter, for_ in Ep.
      destruct (forward_loop pos1 (fun i g => dist_generate stream (pdist p) (plen p) i s g)
                  (zrange 0 (plen p)) g4 [] ds g5 Hg4) as (r & -> & Hr).
      * intros i g6 d g7 Hi Hg6 Ed. apply zrange_In in Hi.
        eapply dist_forward; eauto. lia.
      * exact Ep.
      * exact Hr.
    + exact Ev.
    + exact Hr.
  - rewrite <- E. apply fold_res_ext. intros s lg _.
    destruct (generate_sample stream ps s (snd lg)) as [[v g3]| |]; reflexivity.
  - exact Hr.
Qed.

(** The ideal values are unique. *)
Lemma drawn_eq d d' : dval d = dval d' -> dpos d = dpos d' -> d = d'.
Proof. destruct d, d'; cbn; congruence. Qed.

Lemma nth_error_ext {A} (l l' : list A) :
  (forall k, nth_error l k = nth_error l' k) -> l = l'.
Proof.
  revert l'. induction l as [|a l IH]; intros [|a' l'] H.
  - reflexivity.
  - specialize (H 0%nat). discriminate.
  - specialize (H 0%nat). discriminate.
  - f_equal; [specialize (H 0%nat); cbn in H; congruence|].
    apply IH. intros k. exact (H (S k)).
Qed.

Lemma ideal_parameter_unique stream s p ds ds' :
  ideal_parameter stream s p ds -> ideal_parameter stream s p ds' -> ds = ds'.
Proof.
  intros [L H] [L' H']. apply nth_error_ext. intros k.
  destruct (nth_error ds k) as [d|] eqn:E; destruct (nth_error ds' k) as [d'|] eqn:E'.
  - f_equal. specialize (H (Z.of_nat k) d). specialize (H' (Z.of_nat k) d').
    rewrite Nat2Z.id in H, H'. specialize (H ltac:(lia) E). specialize (H' ltac:(lia) E').
    unfold ideal_component in H, H'. destruct (pdist p).
    + destruct H, H'. apply drawn_eq; congruence.
    + destruct H, H'. apply drawn_eq; congruence.
  - apply nth_error_None in E'. assert (k < length ds)%nat by (apply nth_error_Some; congruence). lia.
  - apply nth_error_None in E. assert (k < length ds')%nat by (apply nth_error_Some; congruence). lia.
  - reflexivity.
Qed.

Lemma ideal_sample_unique stream ps s v v' :
  ideal_sample stream ps s v -> ideal_sample stream ps s v' -> v = v'.
Proof.
  unfold ideal_sample. intros H. revert v'. induction H as [|p ds ps v Hp Hv IH]; intros v' H'.
  - inversion H'; reflexivity.
  - inversion H' as [|? ds' ? v2 Hp' Hv']; subst. f_equal; [|auto].
    eapply ideal_parameter_unique; eauto.
Qed.

(** Several drawing parameters of the same length. *)
Section Many.
  Variables (stream : Z -> R) (bounds : list (R * R)) (d s0 : Z).
  Hypothesis Hd : 1 <= d.
  Hypothesis Hs0 : 0 <= s0.

  Definition many : list parameter :=
    map (fun b => mkparam d (DUniform (fst b) (snd b))) bounds.

  Definition many_block (bs : list (R * R)) (b : Z) : list (list drawn) :=
    map (fun kb => map (fun i =>
           mkdrawn (uniform_scale (fst (snd kb)) (snd (snd kb)) (stream ((b + fst kb) * d + i)))
                   (Some ((b + fst kb) * d + i))) (zrange 0 d))
      (combine (zrange 0 (Z.of_nat (length bs))) bs).

  Lemma many_sample (bs : list (R * R)) s b g acc (j : Z) :
    synced g -> 0 <= s <= b -> s * d < 2 ^ 63 -> 0 <= j ->
    gcount g = (b + j) * d ->
    fold_res (fun p lg =>
      dg <- generate_parameter stream p s (snd lg);;
      Ok (fst lg ++ [fst dg], snd dg)) (map (fun b => mkparam d (DUniform (fst b) (snd b))) bs) (acc, g)
    = Ok (acc ++ map (fun kb => map (fun i =>
           mkdrawn (uniform_scale (fst (snd kb)) (snd (snd kb)) (stream ((b + fst kb) * d + i)))
                   (Some ((b + fst kb) * d + i))) (zrange 0 d))
          (combine (zrange j (j + Z.of_nat (length bs))) bs),
          mkg ((b + j + Z.of_nat (length bs)) * d) ((b + j + Z.of_nat (length bs)) * d)).
  Proof.
    revert g acc j. induction bs as [|[lo hi] bs IH]; intros g acc j Hg Hs Hfit Hj Hc.
    - cbn [map fold_res length]. rewrite (zrange_empty j) by lia. cbn [combine map].
      rewrite app_nil_r. f_equal. f_equal. destruct Hg as [Hg _]. destruct g as [p c]. cbn [gcount gpos Z.of_nat] in *.
      rewrite Z.add_0_r. f_equal; lia.
    - cbn [map fold_res fst snd].
      rewrite (generate_uniform_block stream lo hi d s g (b + j)); auto; try lia.
      cbn [bind fst snd].
      rewrite IH with (j := j + 1); auto; try lia.
      + cbn [length]. rewrite (zrange_cons j) by lia. cbn [combine map fst snd].
        rewrite <- app_assoc. cbn [app].
        replace (j + Z.of_nat (S (length bs))) with (j + 1 + Z.of_nat (length bs)) by lia.
        f_equal. f_equal. f_equal; lia.
      + unfold synced; cbn. split; [reflexivity|nia].
      + cbn [gcount]. f_equal. lia.
  Qed.

  Lemma many_run (n : nat) :
    (s0 + Z.of_nat n) * d < 2 ^ 63 -> (1 <= length bounds)%nat -> (1 <= n)%nat ->
    let K := Z.of_nat (length bounds) in
    run_samples stream many (map (fun t => s0 + t) (zrange 0 (Z.of_nat n))) g0
    = Ok (map (fun t => (s0 + t, many_block bounds (s0 + K * t))) (zrange 0 (Z.of_nat n)),
          mkg ((s0 + K * Z.of_nat n) * d) ((s0 + K * Z.of_nat n) * d)).
  Proof.
    intros Hfit HK Hn K. unfold run_samples.
    assert (Hblock : forall bs b, many_block bs b =
      map (fun kb => map (fun i =>
           mkdrawn (uniform_scale (fst (snd kb)) (snd (snd kb)) (stream ((b + fst kb) * d + i)))
                   (Some ((b + fst kb) * d + i))) (zrange 0 d))
          (combine (zrange 0 (0 + Z.of_nat (length bs))) bs)) by reflexivity.
    induction n as [|n IH]; [lia|].
    replace (Z.of_nat (S n)) with (Z.of_nat n + 1) by lia.
    rewrite zrange_snoc by lia. rewrite !map_app, fold_res_app. cbn [map].
    destruct n as [|n].
    - rewrite (zrange_empty 0 (Z.of_nat 0)) by lia.
      cbn [map fold_res bind app snd fst]. unfold generate_sample, many.
      destruct bounds as [|[lo hi] bs] eqn:Eb; [cbn in HK; lia|].
      cbn [map fold_res bind app snd fst].
      rewrite (generate_uniform_block stream lo hi d (s0 + Z.of_nat 0) g0 s0); try lia.
      2:{ unfold synced, g0; cbn. lia. }
      2:{ right. unfold g0; cbn [gcount]. split; [nia|lia]. }
      cbn [bind fst snd].
      replace (s0 + Z.of_nat 0) with s0 by lia.
      rewrite (many_sample bs s0 s0 _ _ 1); cbn [gcount]; try lia.
      2:{ unfold synced; cbn. split; [reflexivity|nia]. }
      cbn [bind fst snd]. rewrite Hblock. cbn [length].
      replace (Z.of_nat (S (length bs))) with (1 + Z.of_nat (length bs)) by lia.
      rewrite (zrange_cons 0 (0 + (1 + Z.of_nat (length bs)))) by lia.
      cbn [combine map fst snd app].
      replace (s0 + K * Z.of_nat 0 + 0) with s0 by lia.
      replace (s0 + K * Z.of_nat 0) with s0 by lia.
      rewrite Z.add_assoc.
      replace (0 + 1) with 1 by lia.
      f_equal. f_equal. subst K. cbn [length].
      replace (Z.of_nat (S (length bs))) with (1 + Z.of_nat (length bs)) by lia. f_equal; lia.
    - rewrite IH by (try lia; nia). cbn [bind fold_res snd fst].
      unfold generate_sample, many.
      rewrite (many_sample bounds (s0 + Z.of_nat (S n)) (s0 + K * Z.of_nat (S n)) _ _ 0); try (cbn [gcount]; lia).
      + cbn [bind fst snd app]. rewrite Hblock.
        f_equal. f_equal. subst K. f_equal; lia.
      + unfold synced; cbn [gcount gpos]. split; [reflexivity|nia].
      + split; [lia|]. assert (1 <= K) by lia. nia.
  Qed.
End Many.
