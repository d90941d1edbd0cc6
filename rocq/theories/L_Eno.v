(** The loops of ENOCPU compute the pointwise ENO reconstruction. *)
From Coq Require Import ZArith Reals List Bool Lia Lra.
From Verif Require Import M_Base M_Vec M_Boundary M_Flux M_Recon M_Eno S_Boundary S_Flux L_Base L_Loops
  L_Boundary L_Flux S_Recon L_Recon L_Race.
Import ListNotations.
Open Scope Z_scope.

Section E.
Context {V : cvars}.
Variables (dims d : Z) (k : nat) (ind : V -> R) (u : vol V) (start fin : ivec).
Hypothesis Hdims : 1 <= dims <= 3.
Hypothesis Hd : 0 <= d < dims.
Hypothesis Hk : (2 <= k <= 4)%nat.
Hypothesis Hstart : forall j, dir j -> 0 <= start j.
Hypothesis Hfin : forall j, dir j -> fin j <= 0.
Hypothesis Hact : forall j, dir j -> j < dims -> 1 < total u j.
Hypothesis Hflat : forall j, dir j -> dims <= j -> total u j = 1.
Hypothesis Hbig : 2 * Z.of_nat k < total u d.

Notation order := (Z.of_nat k).
Lemma dir_d : dir d. Proof. unfold dir. lia. Qed.
Lemma unit_cases j : dir j -> unit_ d j = 1 /\ j = d \/ unit_ d j = 0 /\ j <> d.
Proof. intros _. unfold unit_. destruct (Z.eqb_spec d j); simpl; auto. Qed.
Lemma active_cases j : dir j -> active (total u) j = 1 /\ j < dims \/ active (total u) j = 0 /\ dims <= j.
Proof.
  intros Hj. unfold active. destruct (Z.eqb_spec j 0) as [->|].
  - left. lia.
  - destruct (Z_lt_ge_dec j dims) as [L|G].
    + left. split; [|exact L]. specialize (Hact j Hj L). destruct (Z.ltb_spec 1 (total u j)); [reflexivity|lia].
    + right. split; [|lia]. rewrite (Hflat j Hj) by lia. reflexivity.
Qed.
Lemma total_pos j : dir j -> 1 <= total u j.
Proof.
  intros Hj. destruct (Z_lt_ge_dec j dims) as [L|G]; [specialize (Hact j Hj L); lia|].
  rewrite Hflat; auto; lia.
Qed.

(** The difference of level [l] at a cell. *)
Definition dd_at (l : nat) (c : cell) : R := ddiff l (fun o => ind (vget u (move d o c))) 0.

Lemma ddiff_shift l v x : ddiff l v x = ddiff l (fun o => v (x + o)) 0.
Proof.
  revert v x. induction l as [|l IH]; intros v x; cbn [ddiff].
  - now rewrite Z.add_0_r.
  - change (0 + 1) with 1. rewrite (IH v (x + 1)), (IH v x), (IH (fun o => v (x + o)) 1).
    f_equal. apply ddiff_ext. intros j _. f_equal. lia.
Qed.
Lemma dd_at_move l j c : dd_at l (move d j c) = ddiff l (fun o => ind (vget u (move d o c))) j.
Proof.
  unfold dd_at. rewrite (ddiff_shift l _ j). apply ddiff_ext. intros i _. cbv beta.
  now rewrite move_move.
Qed.
Lemma dd_at_S l c : dd_at (S l) c = (dd_at l (move d 1 c) - dd_at l c)%R.
Proof. rewrite dd_at_move. unfold dd_at. cbn [ddiff]. reflexivity. Qed.

(** Cells a level reads, and cells where it is computed. *)
Definition reads (l : Z) (c : cell) : Prop := forall j, dir j ->
  if j =? d then start j + l - 1 <= coord j c < total u j - (l - 1) + fin j
  else active (total u) j * order + start j <= coord j c < total u j - active (total u) j * (order - 1) + fin j.
Definition valid (l : Z) (c : cell) : Prop := forall j, dir j ->
  if j =? d then start j + l - 1 <= coord j c < total u j - l + fin j
  else active (total u) j * order + start j <= coord j c < total u j - active (total u) j * (order - 1) + fin j.

Lemma move_back x y z : (x - unit_ d 0, y - unit_ d 1, z - unit_ d 2) = move d (-1) (x, y, z).
Proof. rewrite <- move_unit by exact dir_d. pteq. Qed.

Lemma valid_inr l c : 1 <= l -> valid l c -> inr u c.
Proof.
  intros Hl Hv. apply inr_iff. intros j Hj. specialize (Hv j Hj). specialize (Hstart j Hj). specialize (Hfin j Hj).
  destruct (Z.eqb_spec j d).
  - lia.
  - destruct (active_cases j Hj) as [[E _]|[E _]]; rewrite E in Hv; lia.
Qed.
Lemma reads_valid l c : 1 <= l -> reads (l + 1) c -> valid l c.
Proof.
  intros Hl H j Hj. specialize (H j Hj). destruct (j =? d); lia.
Qed.

Lemma divided_spec (ld : Z -> Z -> Z -> res R) (n : Z -> Z) (w : vol R) (l : nat) :
  (S l < k)%nat -> (forall j, dir j -> n j = total u j) -> same_dims u w ->
  (forall x y z, reads (Z.of_nat (S l)) (x, y, z) -> ld x y z = Ok (dd_at l (x, y, z))) ->
  exists w', divided_differences order d (Z.of_nat (S l)) n ld w start fin = Ok w' /\ same_dims u w' /\
    forall c, valid (Z.of_nat (S l)) c -> vget w' c = dd_at (S l) c.
Proof.
  intros Hl Hn Dw Hld. unfold divided_differences.
  set (lev := Z.of_nat (S l)) in *.
  assert (Hlev : 1 <= lev < order) by (unfold lev; lia).
  assert (Hna : forall j, dir j -> active n j = active (total u) j).
  { intros j Hj. unfold active. now rewrite Hn. }
  replace (forallb _ _) with true.
  2:{ symmetry. apply forallb_forall. intros j Hj.
      assert (Dj : dir j) by (unfold dir; cbn in Hj; intuition lia).
      apply Z.ltb_lt. rewrite (Hn j Dj). pose proof (total_pos j Dj).
      destruct (unit_cases j Dj) as [[E ->]|[E _]]; rewrite E; lia. }
  set (lo := fun j => active n j * ((1 - unit_ d j) * order) + unit_ d j * lev + start j).
  set (hi := fun j => n j - (active n j * ((1 - unit_ d j) * (order - 1)) + unit_ d j * (lev - 1)) + fin j).
  assert (Hlo : forall j, dir j -> lo j = if j =? d then lev + start j else active (total u) j * order + start j).
  { intros j Hj. unfold lo. rewrite (Hna j Hj).
    destruct (unit_cases j Hj) as [[E ->]|[E Ne]]; rewrite E; [rewrite Z.eqb_refl; lia|].
    destruct (Z.eqb_spec j d); lia. }
  assert (Hhi : forall j, dir j -> hi j = if j =? d then total u j - (lev - 1) + fin j
                 else total u j - active (total u) j * (order - 1) + fin j).
  { intros j Hj. unfold hi. rewrite (Hna j Hj), (Hn j Hj).
    destruct (unit_cases j Hj) as [[E ->]|[E Ne]]; rewrite E; [rewrite Z.eqb_refl; lia|].
    destruct (Z.eqb_spec j d); lia. }
  assert (Hrng : forall c, inreg lo hi c = true -> reads lev c /\ valid lev (move d (-1) c)).
  { intros c Hc. rewrite inreg_iff in Hc. split; intros j Hj; specialize (Hc j Hj);
    rewrite (Hlo j Hj), (Hhi j Hj) in Hc; try rewrite coord_move by (auto using dir_d); destruct (j =? d); lia. }
  assert (Hrd1 : forall c, valid lev c -> reads lev c).
  { intros c Hc j Hj. specialize (Hc j Hj). destruct (j =? d); lia. }
  destruct (for3_write (lo 2) (hi 2) (lo 1) (hi 1) (lo 0) (hi 0) (move d (-1) (0, 0, 0))
    (fun x y z out =>
      r <- ld x y z;;
      l0 <- ld (x - unit_ d 0) (y - unit_ d 1) (z - unit_ d 2);;
      vstore out (x - unit_ d 0) (y - unit_ d 1) (z - unit_ d 2) (r - l0)%R)
    (fun c => dd_at (S l) (move d (-1) c)) w) as (w' & E & D & W).
  - intros c Hc. replace (cadd c (move d (-1) (0, 0, 0))) with (move d (-1) c).
    + eapply inr_same; [exact Dw|]. apply (valid_inr lev); [lia|]. now apply Hrng.
    + destruct c as [[x y] z]. unfold move, cadd. destruct (d =? 0); [|destruct (d =? 1)]; pteq.
  - intros x y z v' Hc Dv _. destruct (Hrng (x, y, z) Hc) as [H1 H2].
    rewrite (Hld x y z H1). cbn [bind].
    pose proof (move_back x y z) as Hm. set (a := x - unit_ d 0) in *. set (b := y - unit_ d 1) in *. set (cc := z - unit_ d 2) in *.
    rewrite (Hld a b cc) by (rewrite Hm; now apply Hrd1). cbn [bind].
    unfold vstorec.
    replace (cadd (x, y, z) (move d (-1) (0, 0, 0))) with (a, b, cc).
    2:{ rewrite Hm. unfold move, cadd. destruct (d =? 0); [|destruct (d =? 1)]; pteq. }
    rewrite dd_at_S, move_move. change (-1 + 1) with 0. rewrite move_0, Hm. reflexivity.
  - exists w'. split; [exact E|]. split; [eapply same_dims_trans; eauto|].
    intros c Hc. assert (Hi : inr w c) by (eapply inr_same; [exact Dw|]; apply (valid_inr lev); auto; lia).
    rewrite (W c Hi).
    assert (Es : csub c (move d (-1) (0, 0, 0)) = move d 1 c).
    { destruct c as [[x y] z]. unfold move, csub. destruct (d =? 0); [|destruct (d =? 1)]; pteq. }
    rewrite Es. change (inbox (lo 2) (hi 2) (lo 1) (hi 1) (lo 0) (hi 0) (move d 1 c)) with (inreg lo hi (move d 1 c)).
    replace (inreg lo hi (move d 1 c)) with true.
    + rewrite move_move. change (1 + -1) with 0. now rewrite move_0.
    + symmetry. apply inreg_iff. intros j Hj. specialize (Hc j Hj). rewrite coord_move by (auto using dir_d).
      rewrite (Hlo j Hj), (Hhi j Hj). destruct (j =? d); lia.
Qed.

(** The arrays after the levels are computed. *)
Fixpoint levels_ok (l : nat) (ws : list (vol R)) : Prop :=
  match ws with
  | [] => True
  | w :: ws => same_dims u w /\ (forall c, valid (Z.of_nat (S l)) c -> vget w c = dd_at (S l) c) /\ levels_ok (S l) ws
  end.

Lemma dd_levels_spec ws : forall (l : nat) (n : Z -> Z) (ld : Z -> Z -> Z -> res R),
  (l + length ws < k)%nat -> (forall j, dir j -> n j = total u j) ->
  Forall (same_dims u) ws ->
  (forall x y z, reads (Z.of_nat (S l)) (x, y, z) -> ld x y z = Ok (dd_at l (x, y, z))) ->
  exists ws', dd_levels order d (Z.of_nat (S l)) n ld ws start fin = Ok ws' /\
    length ws' = length ws /\ levels_ok l ws'.
Proof.
  induction ws as [|w ws IH]; intros l n ld Hl Hn Hw Hld.
  - exists []. cbn. auto.
  - inversion Hw as [|? ? D Hw']; subst. cbn [length] in Hl.
    destruct (divided_spec ld n w l) as (w' & E & D' & W); auto; [lia|].
    cbn [dd_levels]. rewrite E. cbn [bind].
    destruct (IH (S l) (total w') (vload w')) as (ws' & E2 & L & H); auto; try lia.
    { intros j _. symmetry. apply total_same. exact D'. }
    { intros x y z Hr.
      assert (Hv : valid (Z.of_nat (S l)) (x, y, z)).
      { apply reads_valid; [lia|]. replace (Z.of_nat (S l) + 1) with (Z.of_nat (S (S l))) by lia. exact Hr. }
      rewrite vload_ok.
      - now rewrite W.
      - eapply inr_same; [exact D'|]. apply (valid_inr (Z.of_nat (S l))); auto. lia. }
    replace (Z.of_nat (S l) + 1) with (Z.of_nat (S (S l))) by lia. rewrite E2. cbn [bind].
    exists (w' :: ws'). split; [reflexivity|]. split; [cbn; lia|]. cbn. auto.
Qed.

(** Cells that are reconstructed. *)
Definition recd (c : cell) : Prop := forall j, dir j ->
  active (total u) j * (order - unit_ d j) + start j <= coord j c
  < total u j - active (total u) j * (order - unit_ d j) + fin j.

Lemma recd_valid (l : nat) c : (S l < k)%nat -> recd c -> valid (Z.of_nat (S l)) c /\ valid (Z.of_nat (S l)) (move d (-1) c).
Proof.
  intros Hl Hc. split; intros j Hj; specialize (Hc j Hj); try rewrite coord_move by (auto using dir_d);
  destruct (active_cases j Hj) as [[E1 E2]|[E1 E2]]; rewrite E1 in *;
  destruct (unit_cases j Hj) as [[E ->]|[E Ne]]; rewrite E in Hc;
  try rewrite Z.eqb_refl; try (destruct (Z.eqb_spec j d)); lia.
Qed.

Lemma count_shift_spec ws : forall l x y z,
  (l + length ws < k)%nat -> levels_ok l ws -> recd (x, y, z) ->
  count_shift d ws x y z (Z.of_nat (eno_shift l (fun o => ind (vget u (move d o (x, y, z)))))) =
  Ok (Z.of_nat (eno_shift (l + length ws) (fun o => ind (vget u (move d o (x, y, z)))))).
Proof.
  induction ws as [|w ws IH]; intros l x y z Hl Hok Hc.
  - cbn [count_shift length]. now rewrite Nat.add_0_r.
  - cbn [length] in Hl. destruct Hok as (D & W & Hok). cbn [count_shift].
    destruct (recd_valid l (x, y, z)) as [V0 V1]; auto; [lia|].
    rewrite vload_ok by (eapply inr_same; [exact D|]; apply (valid_inr (Z.of_nat (S l))); auto; lia).
    cbn [bind]. pose proof (move_back x y z) as Hm.
    set (a := x - unit_ d 0) in *. set (b := y - unit_ d 1) in *. set (cc := z - unit_ d 2) in *.
    rewrite vload_ok by (rewrite Hm; eapply inr_same; [exact D|]; apply (valid_inr (Z.of_nat (S l))); auto; lia).
    cbn [bind]. rewrite Hm, !W by assumption. rewrite dd_at_move.
    specialize (IH (S l) x y z ltac:(lia) Hok Hc). cbn [length].
    replace (l + S (length ws))%nat with (S l + length ws)%nat by lia. rewrite <- IH. f_equal.
    cbn [eno_shift]. unfold dd_at. destruct (Rlt_dec _ _); lia.
Qed.

(** The weighted sums. *)
Lemma weighted_lincomb (f : Z -> V) cs : forall a acc,
  fold_left (fun acc cu => vadd acc (vscal (fst cu) (snd cu)))
    (combine cs (map f (zrange a (a + Z.of_nat (length cs))))) acc = vadd acc (lincomb f cs a).
Proof.
  induction cs as [|c cs IH]; intros a acc.
  - cbn. apply comp_ext. intros i. rewrite comp_add, comp_zero. ring.
  - cbn [length]. rewrite zrange_cons by lia. cbn [map combine fold_left fst snd].
    replace (a + Z.of_nat (S (length cs))) with (a + 1 + Z.of_nat (length cs)) by lia.
    rewrite IH. cbn [lincomb]. apply comp_ext. intros i. rewrite !comp_add. ring.
Qed.

Lemma coef_length s : (s <= k)%nat -> length (nth s (eno_coef k) []) = k.
Proof.
  intros Hs. destruct Hk as [H2 H4].
  assert (k = 2 \/ k = 3 \/ k = 4)%nat as [E|[E|E]] by lia; subst k;
  do 5 (destruct s as [|s]; [(reflexivity || (exfalso; lia))|]); lia.
Qed.

Lemma lincomb_shift (f : Z -> V) cs : forall a b, lincomb (fun j => f (j + b)) cs a = lincomb f cs (a + b).
Proof.
  induction cs as [|c cs IH]; intros a b; cbn [lincomb]; [reflexivity|].
  rewrite IH. do 2 f_equal. lia.
Qed.

Lemma weighted_stencil (f : Z -> V) s t : (s <= k)%nat -> 
  weighted (nth s (eno_coef k) []) (map (fun j => f (j - t)) (zrange 0 order)) =
  lincomb f (nth s (eno_coef k) []) (- t).
Proof.
  intros Hs. unfold weighted.
  pose proof (weighted_lincomb (fun j => f (j + - t)) (nth s (eno_coef k) []) 0 vzero) as E.
  rewrite coef_length in E by exact Hs. rewrite Z.add_0_l in E.
  rewrite lincomb_shift in E. rewrite Z.add_0_l in E.
  transitivity (vadd vzero (lincomb f (nth s (eno_coef k) []) (- t))); [exact E|].
  apply comp_ext. intros i. rewrite comp_add, comp_zero. ring.
Qed.

Definition in_reach (c : cell) : Prop := forall j, dir j -> start j <= coord j c < total u j + fin j.

Lemma eno_perform_spec (ld : Z -> Z -> Z -> res V) (scratch : list (vol R)) (left right : vol V) :
  (forall x y z, in_reach (x, y, z) -> ld x y z = vload u x y z) ->
  length scratch = (k - 1)%nat ->
  (Forall (same_dims u) scratch \/ Forall (fun w => size3 u <> size3 w) scratch) ->
  exists dd, length dd = (k - 1)%nat /\ Forall (same_dims u) dd /\
    eno_perform k ind ld d u scratch left right start fin =
    (lr <- reconstruct dims (eno_recon k ind) d u left right start fin;; Ok (dd, lr)).
Proof.
  intros Hld Hlen Hsc. unfold eno_perform.
  replace ((d <? 0) || (2 <? d)) with false.
  2:{ symmetry. apply orb_false_iff. split; apply Z.ltb_ge; lia. }
  destruct scratch as [|w0 ws]; [cbn in Hlen; lia|].
  set (scratch := w0 :: ws) in *.
  set (scratch1 := if size3 u =? size3 w0 then scratch else _).
  assert (Hs1 : length scratch1 = (k - 1)%nat /\ Forall (same_dims u) scratch1).
  { unfold scratch1. destruct Hsc as [H|H].
    - inversion H as [|? ? (H1 & H2 & H3) _]; subst. unfold size3. rewrite H1, H2, H3, Z.eqb_refl. auto.
    - inversion H as [|? ? H1 _]; subst. destruct (Z.eqb_spec (size3 u) (size3 w0)); [congruence|].
      split; [now rewrite map_length|]. apply Forall_forall. intros w Hin. apply in_map_iff in Hin.
      destruct Hin as (? & <- & _). repeat split. }
  destruct Hs1 as [L1 F1].
  destruct (dd_levels_spec scratch1 0 (total u) (fun x y z => v <- ld x y z;; Ok (ind v)))
    as (dd & E & L & Hok); auto; [lia| |].
  { intros x y z Hr.
    assert (Hi : in_reach (x, y, z)).
    { intros j Hj. specialize (Hr j Hj). destruct (j =? d); [lia|].
      destruct (active_cases j Hj) as [[Ea _]|[Ea _]]; rewrite Ea in Hr; lia. }
    rewrite Hld by exact Hi. rewrite vload_ok.
    - cbn [bind]. unfold dd_at. cbn [ddiff]. now rewrite move_0.
    - apply inr_iff. intros j Hj. specialize (Hi j Hj). specialize (Hstart j Hj). specialize (Hfin j Hj). lia. }
  change (Z.of_nat 1) with 1 in E. rewrite E. cbn [bind].
  replace (forallb _ _) with true.
  2:{ symmetry. apply forallb_forall. intros j Hj.
      assert (Dj : dir j) by (unfold dir; cbn in Hj; intuition lia).
      apply Z.ltb_lt. pose proof (total_pos j Dj).
      destruct (unit_cases j Dj) as [[E1 ->]|[E1 _]]; rewrite E1; lia. }
  exists dd. split; [congruence|]. split.
  { clear - Hok. revert Hok. generalize 0%nat. induction dd as [|w dd IH]; intros l Hok; constructor.
    - apply Hok.
    - apply (IH (S l)). apply Hok. }
  unfold reconstruct. cbn [rec_all rec_ghosts eno_recon rec_fun].
  set (lo := fun j => active (total u) j * (order - unit_ d j) + start j).
  set (hi := fun j => total u j - active (total u) j * (order - unit_ d j) + fin j).
  set (lo' := fun j => ghost dims order j - unit_ d j + start j).
  set (hi' := fun j => total u j - (ghost dims order j - unit_ d j) + fin j).
  assert (Hb : forall j, dir j -> lo j = lo' j /\ hi j = hi' j).
  { intros j Hj. unfold lo, lo', hi, hi', ghost.
    destruct (active_cases j Hj) as [[E1 E2]|[E1 E2]]; rewrite E1;
    destruct (unit_cases j Hj) as [[E3 E4]|[E3 E4]]; rewrite E3; destruct (Z.ltb_spec j dims); lia. }
  match goal with |- bind ?X _ = bind ?Y _ => replace X with Y; [reflexivity|] end.
  change (for3 (lo' 2) (hi' 2) (lo' 1) (hi' 1) (lo' 0) (hi' 0)
    (fun x y z lr =>
     us <- map_res (fun j => vload u (x + unit_ d 0 * j) (y + unit_ d 1 * j) (z + unit_ d 2 * j))
             (zrange (- (order - 1)) order);;
     left' <- vstore (fst lr) x y z (fst (eno k ind (at_ k us)));;
     right' <- vstore (snd lr) x y z (snd (eno k ind (at_ k us)));; Ok (left', right')) (left, right) =
    for3 (lo 2) (hi 2) (lo 1) (hi 1) (lo 0) (hi 0)
    (fun x y z lr =>
     shift <- count_shift d dd x y z 0;;
     us <- map_res (fun j => ld (x - (shift - j) * unit_ d 0) (y - (shift - j) * unit_ d 1)
                                (z - (shift - j) * unit_ d 2)) (zrange 0 order);;
     left' <- vstore (fst lr) x y z (weighted (nth (Z.to_nat shift) (eno_coef k) []) us);;
     right' <- vstore (snd lr) x y z (weighted (nth (Z.to_nat (shift + 1)) (eno_coef k) []) us);;
     Ok (left', right')) (left, right)).
  assert (D0 : dir 0) by (unfold dir; auto). assert (D1 : dir 1) by (unfold dir; auto).
  assert (D2 : dir 2) by (unfold dir; auto).
  destruct (Hb 0 D0) as [<- <-], (Hb 1 D1) as [<- <-], (Hb 2 D2) as [<- <-].
  apply for3_ext. intros x y z lr Hc.
  assert (Hrc : recd (x, y, z)) by (intros j Hj; exact (proj1 (inreg_iff lo hi (x, y, z)) Hc j Hj)).
  set (f := fun o => vget u (move d o (x, y, z))).
  assert (Hin : forall j, - (order - 1) <= j <= order - 1 -> in_reach (move d j (x, y, z))).
  { intros j Hj i Hi. specialize (Hrc i Hi). rewrite coord_move by (auto using dir_d).
    destruct (active_cases i Hi) as [[E1 E2]|[E1 E2]]; rewrite E1 in Hrc;
    destruct (unit_cases i Hi) as [[E3 E4]|[E3 E4]]; rewrite E3 in Hrc; destruct (Z.eqb_spec i d); lia. }
  assert (Hinr : forall j, - (order - 1) <= j <= order - 1 -> inr u (move d j (x, y, z))).
  { intros j Hj. apply inr_iff. intros i Hi. specialize (Hin j Hj i Hi).
    specialize (Hstart i Hi). specialize (Hfin i Hi). lia. }
  rewrite (map_res_ok _ f).
  2:{ intros j Hj. apply zrange_In in Hj. apply vload_move; [exact dir_d|]. apply Hinr. lia. }
  cbn [bind]. change (map f (zrange (- (order - 1)) order)) with (span k f).
  pose proof (eno_span k ind f Hk) as Es. cbn [rec_fun eno_recon] in Es. rewrite Es.
  pose proof (count_shift_spec dd 0 x y z ltac:(lia) Hok Hrc) as Ec.
  cbn [eno_shift Z.of_nat] in Ec. rewrite Ec. cbn [bind].
  replace (0 + length dd)%nat with (k - 1)%nat by lia. fold f.
  set (s := eno_shift (k - 1) (fun o => ind (vget u (move d o (x, y, z))))).
  assert (Hs : (s <= k - 1)%nat) by apply eno_shift_le.
  rewrite (map_res_ok _ (fun j => f (j - Z.of_nat s))).
  2:{ intros j Hj. apply zrange_In in Hj.
      replace (x - (Z.of_nat s - j) * unit_ d 0) with (x + unit_ d 0 * (j - Z.of_nat s)) by ring.
      replace (y - (Z.of_nat s - j) * unit_ d 1) with (y + unit_ d 1 * (j - Z.of_nat s)) by ring.
      replace (z - (Z.of_nat s - j) * unit_ d 2) with (z + unit_ d 2 * (j - Z.of_nat s)) by ring.
      rewrite Hld by (rewrite move_unit by exact dir_d; apply Hin; lia).
      apply vload_move; [exact dir_d|]. apply Hinr. lia. }
  cbn [bind]. rewrite Nat2Z.id. replace (Z.to_nat (Z.of_nat s + 1)) with (S s) by lia.
  rewrite !weighted_stencil by lia. reflexivity.
Qed.
End E.
