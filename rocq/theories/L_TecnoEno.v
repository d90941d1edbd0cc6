(** What the loops of tecno::ENOCPU compute. *)
From Coq Require Import ZArith Reals List Bool Lia Lra.
From Verif Require Import M_Base M_Vec M_Boundary M_Flux M_Scalar M_Recon M_Eno M_Diffusion M_TecnoEno
  S_Boundary S_Flux S_Sum S_Diffusion S_TecnoEno
  L_Base L_Loops L_Boundary L_Flux L_Sum L_Recon L_Race L_Eno.
Import ListNotations.
Open Scope Z_scope.

(** ** The walk *)
Lemma sumz_cons lo hi f : lo < hi -> sumz lo hi f = (f lo + sumz (lo + 1) hi f)%R.
Proof. intros H. unfold sumz. now rewrite zrange_cons. Qed.
Lemma sumz_nil lo hi f : hi <= lo -> sumz lo hi f = 0%R.
Proof. intros H. unfold sumz. now rewrite zrange_empty. Qed.
Lemma walk_0 a J : walk a J 0 = a.
Proof. unfold walk. rewrite !sumz_nil by lia. ring. Qed.
Lemma walk_step a J o : (walk a J (o + 1) - walk a J o)%R = J o.
Proof.
  unfold walk. destruct (Z_le_gt_dec 0 o).
  - rewrite sumz_snoc by lia. rewrite (sumz_nil (o + 1) 0), (sumz_nil o 0) by lia. ring.
  - rewrite (sumz_cons o 0) by lia. rewrite (sumz_nil 0 (o + 1)), (sumz_nil 0 o) by lia. ring.
Qed.
Lemma walk_up a (J : Z -> R) o : walk (a + J 0%Z)%R (fun j => J (j + 1)) o = walk a J (o + 1).
Proof.
  destruct (Z_le_gt_dec 0 o) as [H|H].
  - unfold walk. rewrite (sumz_nil o 0), (sumz_nil (o + 1) 0) by lia. rewrite (sumz_cons 0 (o + 1)) by lia.
    pose proof (sumz_shift 0 o 1 J) as E. rewrite <- E. ring.
  - unfold walk. rewrite (sumz_nil 0 o), (sumz_nil 0 (o + 1)) by lia.
    pose proof (sumz_shift o 0 1 J) as E. rewrite <- E.
    pose proof (sumz_snoc (o + 1) 0 J ltac:(lia)) as E2. rewrite E2.
    ring.
Qed.
Lemma walk_down a (J : Z -> R) o : walk (a - J (-1)%Z)%R (fun j => J (j - 1)) o = walk a J (o - 1).
Proof.
  pose proof (walk_up (a - J (-1)%Z)%R (fun j => J (j - 1)) (o - 1)) as E. cbv beta in E.
  replace (o - 1 + 1) with o in E by lia. rewrite <- E. change (0 - 1) with (-1).
  replace (a - J (-1)%Z + J (-1)%Z)%R with a by ring. unfold walk.
  rewrite !(sumz_ext _ _ (fun j => J (j + 1 - 1)) J); auto; intros; f_equal; lia.
Qed.
Lemma walk_ext a J J' o lo hi : (forall j, lo <= j < hi -> J j = J' j) -> lo <= o <= hi -> lo <= 0 <= hi -> walk a J o = walk a J' o.
Proof.
  intros H Ho H0. unfold walk. rewrite (sumz_ext 0 o J J'), (sumz_ext o 0 J J'); auto; intros; apply H; lia.
Qed.
Lemma ddiff_walk l a J : forall x, ddiff (S l) (walk a J) x = ddiff l J x.
Proof.
  induction l as [|l IH]; intros x.
  - cbn [ddiff]. apply walk_step.
  - change (ddiff (S (S l)) (walk a J) x) with (ddiff (S l) (walk a J) (x + 1) - ddiff (S l) (walk a J) x)%R.
    rewrite !IH. reflexivity.
Qed.

Lemma vflat_ok {A} (w : vol A) i : 0 <= i < size3 w -> vflat w i = Ok (vdat w i).
Proof. intros H. unfold vflat. replace (0 <=? i) with true by (symmetry; apply Z.leb_le; lia).
  now replace (i <? size3 w) with true by (symmetry; apply Z.ltb_lt; lia). Qed.

Lemma zrange_shift a lo hi : zrange (lo + a) (hi + a) = map (fun p => p + a) (zrange lo hi).
Proof. unfold zrange. rewrite map_map. replace (hi + a - (lo + a)) with (hi - lo) by lia. apply map_ext. intros; lia. Qed.
Lemma w_up_spec (w : vol R) n : forall i a, 0 <= i -> i + Z.of_nat n <= size3 w ->
  w_up n w i a = Ok (map (walk a (fun j => vdat w (i + j))) (zrange 1 (Z.of_nat n + 1))).
Proof.
  induction n as [|n IH]; intros i a H1 H2; [reflexivity|].
  cbn [w_up]. rewrite vflat_ok by lia. cbn [bind]. rewrite IH by lia. cbn [bind].
  rewrite (zrange_cons 1 (Z.of_nat (S n) + 1)) by lia. cbn [map]. do 2 f_equal.
  - pose proof (walk_step a (fun j => vdat w (i + j)) 0) as E. cbv beta in E. rewrite walk_0, Z.add_0_r in E.
    change (0 + 1) with 1 in E. lra.
  - replace (Z.of_nat (S n) + 1) with (Z.of_nat n + 1 + 1) by lia.
    rewrite (zrange_shift 1 1 (Z.of_nat n + 1)), map_map. apply map_ext. intros o.
    rewrite <- walk_up. rewrite Z.add_0_r. unfold walk.
    rewrite !(sumz_ext _ _ (fun j => vdat w (i + 1 + j)) (fun j => vdat w (i + (j + 1)))); auto; intros; f_equal; lia.
Qed.
Lemma w_down_spec (w : vol R) n : forall i a, Z.of_nat n <= i -> i <= size3 w ->
  w_down n w i a = Ok (map (fun o => walk a (fun j => vdat w (i + j)) (- o)) (zrange 1 (Z.of_nat n + 1))).
Proof.
  induction n as [|n IH]; intros i a H1 H2; [reflexivity|].
  cbn [w_down]. rewrite vflat_ok by lia. cbn [bind]. rewrite IH by lia. cbn [bind].
  rewrite (zrange_cons 1 (Z.of_nat (S n) + 1)) by lia. cbn [map]. do 2 f_equal.
  - pose proof (walk_step a (fun j => vdat w (i + j)) (-1)) as E. cbv beta in E. change (-1 + 1) with 0 in E.
    rewrite walk_0 in E. change (- (1)) with (-1). replace (i + -1) with (i - 1) in E by lia. lra.
  - replace (Z.of_nat (S n) + 1) with (Z.of_nat n + 1 + 1) by lia.
    rewrite (zrange_shift 1 1 (Z.of_nat n + 1)), map_map. apply map_ext. intros o.
    replace (- (o + 1)) with (- o - 1) by lia. rewrite <- walk_down.
    replace (i + -1) with (i - 1) by lia. unfold walk.
    rewrite !(sumz_ext _ _ (fun j => vdat w (i - 1 + j)) (fun j => vdat w (i + (j - 1)))); auto; intros; f_equal; lia.
Qed.

Lemma rev_zrange (f : Z -> R) n : rev (map (fun o => f (- o)) (zrange 1 (Z.of_nat n + 1))) = map f (zrange (- Z.of_nat n) 0).
Proof.
  induction n as [|n IH]; [reflexivity|].
  replace (Z.of_nat (S n) + 1) with (Z.of_nat n + 1 + 1) by lia. rewrite zrange_snoc by lia.
  rewrite map_app, rev_app_distr, IH. cbn [map rev app]. rewrite (zrange_cons (- Z.of_nat (S n))) by lia.
  cbn [map]. f_equal; [f_equal; lia|]. do 2 f_equal. lia.
Qed.
Lemma w_current_spec (k : nat) (w : vol R) i a : (1 <= k)%nat -> Z.of_nat (k - 1) <= i -> i + Z.of_nat (k - 1) <= size3 w ->
  w_current k w i a = Ok (map (walk a (fun j => vdat w (i + j))) (zrange (- Z.of_nat (k - 1)) (Z.of_nat k))).
Proof.
  intros Hk H1 H2. unfold w_current. rewrite w_up_spec, w_down_spec by lia. cbn [bind]. f_equal.
  rewrite (rev_zrange (walk a (fun j => vdat w (i + j)))).
  rewrite (zrange_app (- Z.of_nat (k - 1)) 0 (Z.of_nat k)) by lia. rewrite map_app. f_equal.
  rewrite (zrange_cons 0) by lia. cbn [map]. rewrite walk_0. do 3 f_equal. lia.
Qed.
Lemma skipn_zrange (f : Z -> R) lo hi n : Z.of_nat n <= hi - lo -> skipn n (map f (zrange lo hi)) = map f (zrange (lo + Z.of_nat n) hi).
Proof.
  revert lo. induction n as [|n IH]; intros lo H; [cbn; now rewrite Z.add_0_r|].
  rewrite zrange_cons by lia. cbn [map skipn]. rewrite IH by lia. do 2 f_equal. lia.
Qed.

(** Sums over a longer list are cut to the length of the coefficients. *)
Lemma weighted_longer (f : Z -> R) cs : forall a n, Z.of_nat (length cs) <= n ->
  weighted (V := scalar_cvars) cs (map f (zrange a (a + n))) = lincomb (V := scalar_cvars) f cs a.
Proof.
  intros a n Hn. unfold weighted. rewrite (zrange_app a (a + Z.of_nat (length cs)) (a + n)) by lia.
  rewrite map_app. assert (E : forall (l : list R) (x y : list R), length x = length l -> combine l (x ++ y) = combine l x).
  { induction l as [|q l IH]; intros [|p x] y H; try discriminate; [reflexivity|]. cbn. f_equal. apply IH. now injection H. }
  rewrite E by (rewrite map_length, zrange_length; lia).
  pose proof (weighted_lincomb (V := scalar_cvars) 2 ltac:(lia) f cs a vzero) as W. etransitivity; [exact W|]. cbn. ring.
Qed.

Lemma eno_row k s : (2 <= k <= 4)%nat -> (s <= k)%nat -> length (nth s (eno_coef k) []) = k.
Proof.
  intros [H2 H4] Hs. assert (k = 2 \/ k = 3 \/ k = 4)%nat as [E|[E|E]] by lia; subst k;
  do 5 (destruct s as [|s]; [(reflexivity || (exfalso; lia))|]); lia.
Qed.

Section Var.
Variables (k : nat) (d : Z) (el er : vol R).
Hypothesis Hd : dir d.
Hypothesis Hk : (2 <= k <= 4)%nat.
Hypothesis Hext : forall j, dir j -> 1 <= total el j.
Hypothesis Hbig : 2 * Z.of_nat k < total el d.
Hypothesis Der : same_dims el er.
Notation order := (Z.of_nat k).

Lemma unit_casesd j : unit_ d j = 1 /\ j = d \/ unit_ d j = 0 /\ j <> d.
Proof. unfold unit_. destruct (Z.eqb_spec d j); simpl; auto. Qed.
Lemma backc x y z : (x - unit_ d 0, y - unit_ d 1, z - unit_ d 2) = move d (-1) (x, y, z).
Proof. rewrite <- move_unit by exact Hd. pteq. Qed.

(** Where a level is computed. *)
Definition lvalid (l : Z) (c : cell) : Prop := inr el c /\ l - 1 <= coord d c < total el d - l - 1.

Lemma differences_spec (n : Z -> Z) (ldl ldr : Z -> Z -> Z -> res R) (A B : cell -> R) (w : vol R) lev :
  1 <= lev < order -> (forall j, dir j -> n j = total el j) -> same_dims el w ->
  (forall x y z, inr el (x, y, z) -> ldl x y z = Ok (A (x, y, z))) ->
  (forall x y z, inr el (x, y, z) -> ldr x y z = Ok (B (x, y, z))) ->
  exists w', tecno_differences d lev n ldl ldr w = Ok w' /\ same_dims el w' /\
    forall c, lvalid lev c -> vget w' c = (A (move d 1 c) - B c)%R.
Proof.
  intros Hl Hn Dw HA HB. unfold tecno_differences.
  replace (forallb _ _) with true.
  2:{ symmetry. apply forallb_forall. intros j Hj.
      assert (Dj : dir j) by (unfold dir; cbn in Hj; intuition lia).
      apply Z.ltb_lt. rewrite (Hn j Dj). pose proof (Hext j Dj).
      destruct (unit_casesd j) as [[E ->]|[E _]]; rewrite E; lia. }
  set (lo := fun j => unit_ d j * lev). set (hi := fun j => n j - unit_ d j * lev).
  assert (Hrng : forall c, inreg lo hi c = true <-> inr el c /\ lev <= coord d c < total el d - lev).
  { intros c. rewrite inreg_iff, inr_iff. split.
    - intros H. split.
      + intros j Hj. specialize (H j Hj). unfold lo, hi in H. rewrite Hn in H by auto.
        destruct (unit_casesd j) as [[E ->]|[E _]]; rewrite E in H; lia.
      + specialize (H d Hd). unfold lo, hi in H. rewrite Hn in H by auto.
        destruct (unit_casesd d) as [[E _]|[_ E]]; [rewrite E in H; lia|congruence].
    - intros [H1 H2] j Hj. specialize (H1 j Hj). unfold lo, hi. rewrite Hn by auto.
      destruct (unit_casesd j) as [[E ->]|[E _]]; rewrite E; lia. }
  assert (Hback : forall c, inreg lo hi c = true -> inr el (move d (-1) c)).
  { intros c Hc. apply Hrng in Hc. destruct Hc as [H1 H2]. rewrite inr_iff in *. intros j Hj.
    specialize (H1 j Hj). rewrite coord_move by auto. destruct (Z.eqb_spec j d) as [->|]; lia. }
  destruct (for3_write (lo 2) (hi 2) (lo 1) (hi 1) (lo 0) (hi 0) (move d (-1) (0, 0, 0))
    (fun x y z out =>
      r <- ldl x y z;;
      l0 <- ldr (x - unit_ d 0) (y - unit_ d 1) (z - unit_ d 2);;
      vstore out (x - unit_ d 0) (y - unit_ d 1) (z - unit_ d 2) (r - l0)%R)
    (fun c => (A c - B (move d (-1) c))%R) w) as (w' & E & D & W).
  - intros c Hc. replace (cadd c (move d (-1) (0, 0, 0))) with (move d (-1) c).
    + eapply inr_same; [exact Dw|]. now apply Hback.
    + destruct c as [[x y] z]. unfold move, cadd. destruct (d =? 0); [|destruct (d =? 1)]; pteq.
  - intros x y z v' Hc Dv _. pose proof (Hback (x, y, z) Hc) as Hb. apply Hrng in Hc. destruct Hc as [Hc _].
    rewrite (HA x y z Hc). cbn [bind].
    pose proof (backc x y z) as Hm. set (a := x - unit_ d 0) in *. set (b := y - unit_ d 1) in *. set (cc := z - unit_ d 2) in *.
    rewrite (HB a b cc) by (now rewrite Hm). cbn [bind].
    unfold vstorec.
    replace (cadd (x, y, z) (move d (-1) (0, 0, 0))) with (a, b, cc); [now rewrite Hm|].
    rewrite Hm. unfold move, cadd. destruct (d =? 0); [|destruct (d =? 1)]; pteq.
  - exists w'. split; [exact E|]. split; [eapply same_dims_trans; eauto|].
    intros c [Hc1 Hc2]. assert (Hi : inr w c) by (eapply inr_same; [exact Dw|]; exact Hc1).
    rewrite (W c Hi).
    assert (Es : csub c (move d (-1) (0, 0, 0)) = move d 1 c).
    { destruct c as [[x y] z]. unfold move, csub. destruct (d =? 0); [|destruct (d =? 1)]; pteq. }
    rewrite Es. change (inbox (lo 2) (hi 2) (lo 1) (hi 1) (lo 0) (hi 0) (move d 1 c)) with (inreg lo hi (move d 1 c)).
    replace (inreg lo hi (move d 1 c)) with true.
    + rewrite move_move. change (1 + -1) with 0. now rewrite move_0.
    + symmetry. apply Hrng. split.
      * rewrite inr_iff in *. intros j Hj. specialize (Hc1 j Hj). rewrite coord_move by auto.
        destruct (Z.eqb_spec j d) as [->|]; lia.
      * rewrite coord_move by auto. rewrite Z.eqb_refl. lia.
Qed.

(** The face jump, and its differences along d. *)
Definition J (c : cell) : R := (vget el (move d 1 c) - vget er c)%R.
Definition dJ (l : nat) (c : cell) : R := ddiff l (fun o => J (move d o c)) 0.
Lemma dJ_move l o c : dJ l (move d o c) = ddiff l (fun o => J (move d o c)) o.
Proof.
  unfold dJ. rewrite (ddiff_shift k Hk l _ o). apply ddiff_ext. intros i _. now rewrite move_move.
Qed.
Lemma dJ_S l c : dJ (S l) c = (dJ l (move d 1 c) - dJ l c)%R.
Proof. rewrite dJ_move. unfold dJ. cbn [ddiff]. reflexivity. Qed.

Fixpoint lev_ok (l : nat) (ws : list (vol R)) : Prop :=
  match ws with
  | [] => True
  | w :: ws => same_dims el w /\ (forall c, lvalid (Z.of_nat (S l)) c -> vget w c = dJ l c) /\ lev_ok (S l) ws
  end.

Lemma levels_rest ws : forall l w0, (S l + length ws < k)%nat -> Forall (same_dims el) ws -> same_dims el w0 ->
  (forall c, lvalid (Z.of_nat (S l)) c -> vget w0 c = dJ l c) ->
  exists ws', tecno_levels d (Z.of_nat (S (S l))) (total w0) (vload w0) (vload w0) ws = Ok ws' /\
    length ws' = length ws /\ lev_ok (S l) ws'.
Proof.
  induction ws as [|w ws IH]; intros l w0 Hl Hw D0 W0.
  - exists []. cbn. auto.
  - inversion Hw as [|? ? D Hw']; subst. cbn [length] in Hl. cbn [tecno_levels].
    destruct (differences_spec (total w0) (vload w0) (vload w0) (vget w0) (vget w0) w (Z.of_nat (S (S l)))) as (w' & E & D' & W);
      auto; try lia.
    { intros j _. symmetry. now apply total_same. }
    { intros x y z Hi. apply vload_ok. eapply inr_same; eauto. }
    { intros x y z Hi. apply vload_ok. eapply inr_same; eauto. }
    rewrite E. cbn [bind].
    assert (W' : forall c, lvalid (Z.of_nat (S (S l))) c -> vget w' c = dJ (S l) c).
    { intros c Hc. rewrite W by exact Hc. rewrite dJ_S, !W0; [reflexivity| |];
      destruct Hc as [H1 H2]; (split; [|try rewrite coord_move by auto; try rewrite Z.eqb_refl; lia]); auto.
      rewrite inr_iff in *. intros j Hj. specialize (H1 j Hj). rewrite coord_move by auto.
      destruct (Z.eqb_spec j d) as [->|]; lia. }
    destruct (IH (S l) w') as (ws' & E2 & L & H); auto; try lia.
    replace (Z.of_nat (S (S l)) + 1) with (Z.of_nat (S (S (S l)))) by lia. rewrite E2. cbn [bind].
    exists (w' :: ws'). split; [reflexivity|]. split; [cbn; lia|]. cbn [lev_ok]. auto.
Qed.

Lemma levels_spec scratch : length scratch = (k - 1)%nat -> Forall (same_dims el) scratch ->
  exists w0 ws, tecno_levels d 1 (total el) (vload el) (vload er) scratch = Ok (w0 :: ws) /\
    length (w0 :: ws) = (k - 1)%nat /\ lev_ok 0 (w0 :: ws).
Proof.
  intros HL HF. destruct scratch as [|w ws]; [cbn in HL; lia|]. inversion HF as [|? ? D Hw']; subst. cbn [length] in HL.
  cbn [tecno_levels].
  destruct (differences_spec (total el) (vload el) (vload er) (vget el) (vget er) w 1) as (w' & E & D' & W); auto; try lia.
  { intros x y z Hi. now apply vload_ok. }
  { intros x y z Hi. apply vload_ok. eapply inr_same; eauto. }
  rewrite E. cbn [bind].
  assert (W' : forall c, lvalid (Z.of_nat 1) c -> vget w' c = dJ 0 c).
  { intros c Hc. rewrite W by exact Hc. unfold dJ, J. cbn [ddiff]. now rewrite move_0. }
  destruct (levels_rest ws 0 w') as (ws' & E2 & L & H); auto; try lia.
  change (1 + 1) with (Z.of_nat 2). rewrite E2. cbn [bind]. exists w', ws'. split; [reflexivity|].
  split; [cbn [length]; lia|]. cbn [lev_ok]. auto.
Qed.

(** The shift read off the contents. *)
Fixpoint cshift (ws : list (vol R)) (c : cell) (s : nat) : nat :=
  match ws with
  | [] => s
  | w :: ws => cshift ws c (if Rlt_dec (Rabs (vget w (move d (-1) c))) (Rabs (vget w c)) then S s else s)
  end.
Lemma cshift_le ws c : forall s, (cshift ws c s <= s + length ws)%nat.
Proof.
  induction ws as [|w ws IH]; intros s; cbn [cshift length]; [lia|].
  destruct (Rlt_dec _ _); [specialize (IH (S s))|specialize (IH s)]; lia.
Qed.
Lemma count_cshift ws x y z : forall s, Forall (same_dims el) ws -> inr el (x, y, z) -> inr el (move d (-1) (x, y, z)) ->
  count_shift d ws x y z (Z.of_nat s) = Ok (Z.of_nat (cshift ws (x, y, z) s)).
Proof.
  induction ws as [|w ws IH]; intros s HF H0 H1; cbn [count_shift cshift]; [reflexivity|].
  inversion HF as [|? ? D HF']; subst.
  rewrite vload_ok by (eapply inr_same; eauto). cbn [bind].
  pose proof (backc x y z) as Hm. set (a := x - unit_ d 0) in *. set (b := y - unit_ d 1) in *. set (cc := z - unit_ d 2) in *.
  rewrite vload_ok by (rewrite Hm; eapply inr_same; eauto). cbn [bind]. rewrite Hm.
  rewrite <- IH by auto. f_equal. destruct (Rlt_dec _ _); lia.
Qed.
Lemma lev_ok_dims ws : forall l, lev_ok l ws -> Forall (same_dims el) ws.
Proof. induction ws as [|w ws IH]; intros l H; constructor; [apply H|]. apply (IH (S l)). apply H. Qed.

(** The loop. *)
Definition reccell (c : cell) : Prop := inr el c /\ order - 1 <= coord d c < total el d - (order - 1).
Definition flat (c : cell) : Z := let '(x, y, z) := c in index (vnx el) (vny el) x y z.
Definition rowwalk (w0 : vol R) (c : cell) : Z -> R := walk (vget el c) (fun j => vdat w0 (flat c + j)).

Lemma reccell_flat c : reccell c -> order - 1 <= flat c /\ flat c + (order - 1) < size3 el.
Proof.
  intros [H1 H2]. destruct c as [[x y] z]. unfold flat, size3, index in *.
  destruct H1 as (Hx & Hy & Hz). pose proof (Hext 0 (or_introl eq_refl)) as E0.
  pose proof (Hext 1 (or_intror (or_introl eq_refl))) as E1. pose proof (Hext 2 (or_intror (or_intror eq_refl))) as E2.
  unfold total in *. cbn [Z.eqb Pos.eqb] in *.
  assert (I1 : (vnz el - 1) * vnx el * vny el + (vny el - 1) * vnx el + vnx el = vnx el * vny el * vnz el) by ring.
  dcase Hd; cbn [coord Z.eqb Pos.eqb] in H2.
  - assert (0 <= z * vnx el * vny el <= (vnz el - 1) * vnx el * vny el).
    { split; [|apply Z.mul_le_mono_nonneg_r; [lia|]; apply Z.mul_le_mono_nonneg_r]; try lia. }
    assert (0 <= y * vnx el <= (vny el - 1) * vnx el) by nia. lia.
  - assert (0 <= z * vnx el * vny el <= (vnz el - 1) * vnx el * vny el).
    { split; [|apply Z.mul_le_mono_nonneg_r; [lia|]; apply Z.mul_le_mono_nonneg_r]; try lia. }
    assert ((order - 1) * 1 <= y * vnx el) by (apply Z.mul_le_mono_nonneg; lia).
    assert (y * vnx el <= (vny el - order) * vnx el) by (apply Z.mul_le_mono_nonneg_r; lia).
    assert ((order - 1) * 1 <= (order - 1) * vnx el) by (apply Z.mul_le_mono_nonneg_l; lia).
    replace ((vny el - 1) * vnx el) with ((vny el - order) * vnx el + (order - 1) * vnx el) in I1 by ring. lia.
  - set (P := vnx el * vny el) in *.
    assert (HP : 1 <= P) by (unfold P; nia).
    replace (z * vnx el * vny el) with (z * P) by (unfold P; ring).
    replace ((vnz el - 1) * vnx el * vny el) with ((vnz el - 1) * P) in I1 by (unfold P; ring).
    assert ((order - 1) * 1 <= z * P) by (apply Z.mul_le_mono_nonneg; lia).
    assert (z * P <= (vnz el - order) * P) by (apply Z.mul_le_mono_nonneg_r; lia).
    assert ((order - 1) * 1 <= (order - 1) * P) by (apply Z.mul_le_mono_nonneg_l; lia).
    replace ((vnz el - 1) * P) with ((vnz el - order) * P + (order - 1) * P) in I1 by ring.
    assert (0 <= y * vnx el <= (vny el - 1) * vnx el) by nia. lia.
Qed.

Lemma var_spec scratch left right : length scratch = (k - 1)%nat -> Forall (same_dims el) scratch ->
  same_dims el left -> same_dims el right ->
  exists w0 ws l' r', tecno_eno_var k d el er scratch left right = Ok (w0 :: ws, (l', r')) /\
    length (w0 :: ws) = (k - 1)%nat /\ lev_ok 0 (w0 :: ws) /\ same_dims el l' /\ same_dims el r' /\
    forall c, reccell c ->
      vget l' c = stencil_left (V := scalar_cvars) (rowwalk w0 c) k (cshift (w0 :: ws) c 0) /\
      vget r' c = (stencil_right (V := scalar_cvars) (rowwalk w0 c) k (cshift (w0 :: ws) c 0) + (vget er c - vget el c))%R.
Proof.
  intros HL HF Dl Dr. destruct (levels_spec scratch HL HF) as (w0 & ws & E & Lw & Hok).
  unfold tecno_eno_var. rewrite E. cbn [bind].
  replace (forallb _ _) with true.
  2:{ symmetry. apply forallb_forall. intros j Hj.
      assert (Dj : dir j) by (unfold dir; cbn in Hj; intuition lia).
      apply Z.ltb_lt. pose proof (Hext j Dj).
      destruct (unit_casesd j) as [[E1 ->]|[E1 _]]; rewrite E1; lia. }
  set (dd := w0 :: ws) in *. pose proof (lev_ok_dims dd 0 Hok) as Hdd.
  set (lo := fun j => unit_ d j * (order - 1)). set (hi := fun j => total el j - unit_ d j * (order - 1)).
  assert (Hrng : forall c, inreg lo hi c = true <-> reccell c).
  { intros c. unfold reccell. rewrite inreg_iff, inr_iff. split.
    - intros H. split.
      + intros j Hj. specialize (H j Hj). unfold lo, hi in H.
        destruct (unit_casesd j) as [[E1 ->]|[E1 _]]; rewrite E1 in H; lia.
      + specialize (H d Hd). unfold lo, hi in H.
        destruct (unit_casesd d) as [[E1 _]|[_ E1]]; [rewrite E1 in H; lia|congruence].
    - intros [H1 H2] j Hj. specialize (H1 j Hj). unfold lo, hi.
      destruct (unit_casesd j) as [[E1 ->]|[E1 _]]; rewrite E1; lia. }
  match goal with |- exists a b c e, bind (for3 ?q1 ?q2 ?q3 ?q4 ?q5 ?q6 ?B _) _ = _ /\ _ =>
    destruct (for3_write2 q1 q2 q3 q4 q5 q6 B
      (fun c => stencil_left (V := scalar_cvars) (rowwalk w0 c) k (cshift dd c 0))
      (fun c => (stencil_right (V := scalar_cvars) (rowwalk w0 c) k (cshift dd c 0) + (vget er c - vget el c))%R) left right)
      as (l' & r' & E2 & D1 & D2 & W1 & W2) end.
  - apply (same_dims_trans left el right); [now apply same_dims_sym|exact Dr].
  - intros c Hc. eapply inr_same; [exact Dl|]. change (inreg lo hi c = true) in Hc. apply Hrng in Hc. apply Hc.
  - intros x y z v' w' Hc. change (inreg lo hi (x, y, z) = true) in Hc. apply Hrng in Hc. cbn [fst snd].
    pose proof Hc as [Hi Hcd]. pose proof (reccell_flat _ Hc) as Hfl.
    assert (Hb : inr el (move d (-1) (x, y, z))).
    { rewrite inr_iff in *. intros j Hj. specialize (Hi j Hj). rewrite coord_move by auto.
      destruct (Z.eqb_spec j d) as [->|]; lia. }
    change 0 with (Z.of_nat 0) at 1. rewrite (count_cshift dd x y z 0) by auto. cbn [bind].
    rewrite vload_ok by auto. cbn [bind]. rewrite vload_ok by (eapply inr_same; eauto). cbn [bind].
    set (s := cshift dd (x, y, z) 0). assert (Hs : (s <= k - 1)%nat) by (unfold s; pose proof (cshift_le dd (x, y, z) 0); lia).
    assert (Sz : size3 w0 = size3 el).
    { inversion Hdd as [|? ? (A1 & A2 & A3) _]; subst. unfold size3. now rewrite A1, A2, A3. }
    change (index (vnx el) (vny el) x y z) with (flat (x, y, z)).
    rewrite w_current_spec by lia. cbn [bind].
    replace (Z.to_nat (order - 1 - Z.of_nat s)) with (k - 1 - s)%nat by lia.
    rewrite skipn_zrange by lia.
    replace (- Z.of_nat (k - 1) + Z.of_nat (k - 1 - s)) with (- Z.of_nat s) by lia.
    rewrite Nat2Z.id. replace (Z.to_nat (Z.of_nat s + 1)) with (S s) by lia.
    replace (zrange (- Z.of_nat s) order) with (zrange (- Z.of_nat s) (- Z.of_nat s + (order + Z.of_nat s))) by (f_equal; lia).
    rewrite !weighted_longer.
    + reflexivity.
    + rewrite (eno_row k) by lia. lia.
    + rewrite (eno_row k) by lia. lia.
  - rewrite E2. cbn [bind]. exists w0, ws, l', r'. split; [reflexivity|]. split; [exact Lw|]. split; [exact Hok|].
    split; [exact (same_dims_trans el left l' Dl D1)|]. split; [exact (same_dims_trans el right r' Dr D2)|]. intros c Hc.
    assert (Hin : inr left c) by (eapply inr_same; [exact Dl|]; apply Hc).
    assert (Hin' : inr right c) by (eapply inr_same; [exact Dr|]; apply Hc).
    rewrite (W1 c Hin), (W2 c Hin').
    apply Hrng in Hc. unfold inreg in Hc. split; match goal with |- (if ?b then _ else _) = _ => replace b with true by (symmetry; exact Hc) end; reflexivity.
Qed.

(** Cells where nothing stale is read. *)
Definition good (c : cell) : Prop := inr el c /\ order - 1 <= coord d c < total el d - order /\
  order - 1 <= coord 0 c < total el 0 - order.

Lemma cshift_eno ws : forall l c a s, (l + length ws < k)%nat -> lev_ok l ws -> good c ->
  s = eno_shift l (walk a (fun o => J (move d o c))) ->
  cshift ws c s = eno_shift (l + length ws) (walk a (fun o => J (move d o c))).
Proof.
  induction ws as [|w ws IH]; intros l c a s Hl Hok Hc ->.
  - cbn [cshift length]. now rewrite Nat.add_0_r.
  - cbn [length] in Hl. destruct Hok as (D & W & Hok). cbn [cshift]. destruct Hc as (Hi & Hcd & Hc0).
    assert (V0 : lvalid (Z.of_nat (S l)) c) by (split; [exact Hi|lia]).
    assert (V1 : lvalid (Z.of_nat (S l)) (move d (-1) c)).
    { split; [|rewrite coord_move by auto; rewrite Z.eqb_refl; lia].
      rewrite inr_iff in *. intros j Hj. specialize (Hi j Hj). rewrite coord_move by auto.
      destruct (Z.eqb_spec j d) as [->|]; lia. }
    rewrite !W by assumption. rewrite dJ_move.
    replace (l + length (w :: ws))%nat with (S l + length ws)%nat by (cbn; lia).
    apply IH; auto; [lia|split; auto|]. cbn [eno_shift]. rewrite !ddiff_walk. unfold dJ.
    destruct (Rlt_dec _ _); lia.
Qed.

(** For good cells: stencil chosen along d, values taken along x. *)
Lemma var_good scratch left right : length scratch = (k - 1)%nat -> Forall (same_dims el) scratch ->
  same_dims el left -> same_dims el right ->
  exists dd l' r', tecno_eno_var k d el er scratch left right = Ok (dd, (l', r')) /\
    length dd = (k - 1)%nat /\ Forall (same_dims el) dd /\ same_dims el l' /\ same_dims el r' /\
    forall c, good c ->
      let W := walk (vget el c) (fun o => J (move 0 o c)) in
      let s := eno_shift (k - 1) (walk (vget el c) (fun o => J (move d o c))) in
      vget l' c = stencil_left (V := scalar_cvars) W k s /\
      vget r' c = (stencil_right (V := scalar_cvars) W k s + (vget er c - vget el c))%R.
Proof.
  intros HL HF Dl Dr. destruct (var_spec scratch left right HL HF Dl Dr) as (w0 & ws & l' & r' & E & Lw & Hok & D1 & D2 & W).
  exists (w0 :: ws), l', r'. split; [exact E|]. split; [exact Lw|]. split; [apply (lev_ok_dims _ 0 Hok)|].
  split; [exact D1|]. split; [exact D2|]. intros c Hc Wk s.
  assert (Hrc : reccell c) by (destruct Hc as (H1 & H2 & H3); split; [exact H1|lia]).
  destruct (W c Hrc) as [-> ->].
  assert (Es : cshift (w0 :: ws) c 0 = s).
  { unfold s. replace (k - 1)%nat with (0 + length (w0 :: ws))%nat by lia. apply cshift_eno; auto. lia. }
  rewrite Es. assert (Hs : (s <= k - 1)%nat) by apply eno_shift_le.
  assert (Hw : forall j, - order < j < order -> rowwalk w0 c j = Wk j).
  { intros j Hj. unfold rowwalk, Wk. apply (walk_ext _ _ _ j (- (order - 1)) (order - 1)); [|lia|lia].
    intros o Ho. destruct Hok as (Dw & Ww & _).
    assert (Hm : inr el (move 0 o c)).
    { destruct Hc as (Hi & _ & Hc0). rewrite inr_iff in *. intros i Hii. specialize (Hi i Hii).
      rewrite coord_move by (auto; now left). destruct (Z.eqb_spec i 0) as [->|]; lia. }
    assert (Ev : vdat w0 (flat c + o) = vget w0 (move 0 o c)).
    { destruct c as [[x y] z]. unfold flat, move, vget. cbn [Z.eqb]. destruct Dw as (A1 & A2 & A3).
      rewrite <- A1, <- A2. f_equal. unfold index. lia. }
    rewrite Ev. rewrite Ww; [unfold dJ; cbn [ddiff]; now rewrite move_0|].
    split; [exact Hm|]. rewrite coord_move by (auto; now left). destruct Hc as (_ & Hcd & Hc0).
    destruct (Z.eqb_spec d 0) as [->|]; lia. }
  destruct (stencil_ext (V := scalar_cvars) (rowwalk w0 c) Wk k s ltac:(lia) ltac:(lia)) as [-> ->]; [|split; reflexivity].
  intros j Hj. apply Hw. lia.
Qed.
End Var.
