(** C65: the TeCNO diffusion operator with ENO reconstruction.
    Full statement: with reconstruction eno2, eno3 or eno4 the operator adds to
    every interior cell the difference of the dissipations
    1/2 R |Lambda| <<R^T v>> of its faces, <<.>> the jump of the reconstructed
    values; the term sums to zero over a periodic grid, and its inner product
    with the entropy variables is not positive.
    Proved: conservation with order + 1 ghost layers, any number of dimensions;
    the closed form in one dimension; the entropy inequality for eno2 in one
    dimension.  False with the number of layers the operator asks for
    (C65_ghost_layers_refuted), for eno3 and eno4 (C65_order_three_refuted,
    C65_order_four_refuted) and in two dimensions (C65_y_direction_refuted). *)
From Coq Require Import ZArith Reals List Bool Lia Lra.
From Verif Require Import M_Base M_Vec M_Boundary M_Flux M_Scalar M_Recon M_Euler M_EulerEigen M_Eno M_Diffusion M_TecnoEno
  S_Boundary S_Flux S_Sum S_Entropy S_Diffusion S_TecnoEno
  L_Base L_Loops L_Boundary L_Flux L_System L_Sum L_Conserve L_Entropy L_Recon L_FluxTop L_Diffusion L_TecnoEno L_TecnoEno2 T_Diffusion.
Import ListNotations.
Open Scope R_scope.

(** Contents of the arrays of divided differences do not matter, only their
    number; they have the extents of the volume or another total size. *)
Definition scratch_fits {V : cvars} (k : nat) (u : vol V) (scratch : list (vol R)) : Prop :=
  length scratch = (k - 1)%nat /\
  (Forall (same_dims u) scratch \/ Forall (fun w => size3 u <> size3 w) scratch).

(** The arrays of a new operator fit. *)
Theorem C65_fresh_scratch_fits :
  forall (V : cvars) (u : vol V) dims g nx ny nz k, (2 <= k)%nat -> (Z.of_nat k <= g)%Z ->
  (1 <= dims <= 3)%Z -> (0 < nx)%Z -> ext dims g nx ny nz u ->
  (if 1 <? dims then 1 < ny else ny = 1)%Z -> (if 2 <? dims then 1 < nz else nz = 1)%Z ->
  scratch_fits k u (fresh_scratch k nx ny nz).
Proof.
  intros V u dims g nx ny nz k Hk Hg Hd Hx (E1 & E2 & E3) Hy Hz. unfold fresh_scratch. split; [apply repeat_length|].
  set (w := zero_vol _ _ _). set (kk := Z.of_nat k) in *.
  assert (P : Forall (same_dims u) (repeat w (k - 1)) <-> same_dims u w \/ k = 1%nat).
  { destruct k as [|[|k]]; try lia. cbn [Nat.sub repeat]. split.
    - intros H. inversion H; auto.
    - intros [H|H]; [|lia]. apply Forall_forall. intros x Hin. destruct Hin as [<-|Hin]; [exact H|].
      apply repeat_spec in Hin. now subst. }
  destruct (Z.eq_dec g kk) as [Eg|Ng].
  - left. apply P. left. subst g. unfold same_dims, w. cbn [vnx vny vnz zero_vol]. rewrite E1, E2, E3.
    split; [reflexivity|]. split.
    + destruct (1 <? dims)%Z.
      * replace (1 <? ny)%Z with true by (symmetry; apply Z.ltb_lt; lia). reflexivity.
      * rewrite Hy. reflexivity.
    + destruct (2 <? dims)%Z.
      * replace (1 <? nz)%Z with true by (symmetry; apply Z.ltb_lt; lia). reflexivity.
      * rewrite Hz. reflexivity.
  - right. apply Forall_forall. intros x Hin. apply repeat_spec in Hin. subst x.
    unfold size3, w. cbn [vnx vny vnz zero_vol]. rewrite E1, E2, E3.
    assert (0 < kk < g)%Z by lia.
    destruct (1 <? dims)%Z, (2 <? dims)%Z;
      [replace (1 <? ny)%Z with true by (symmetry; apply Z.ltb_lt; lia); replace (1 <? nz)%Z with true by (symmetry; apply Z.ltb_lt; lia)
      |replace (1 <? ny)%Z with true by (symmetry; apply Z.ltb_lt; lia); rewrite Hz; cbn [Z.ltb Z.compare Pos.compare Pos.compare_cont]
      |rewrite Hy; replace (1 <? nz)%Z with true by (symmetry; apply Z.ltb_lt; lia); cbn [Z.ltb Z.compare Pos.compare Pos.compare_cont]
      |rewrite Hy, Hz; cbn [Z.ltb Z.compare Pos.compare Pos.compare_cont]].
    + assert ((nx + 2 * kk) * (ny + 2 * kk) < (nx + 2 * g) * (ny + 2 * g))%Z by (apply Z.mul_lt_mono_nonneg; lia).
      assert ((nx + 2 * kk) * (ny + 2 * kk) * (nz + 2 * kk) < (nx + 2 * g) * (ny + 2 * g) * (nz + 2 * g))%Z
        by (apply Z.mul_lt_mono_nonneg; lia). lia.
    + assert ((nx + 2 * kk) * (ny + 2 * kk) < (nx + 2 * g) * (ny + 2 * g))%Z by (apply Z.mul_lt_mono_nonneg; lia). lia.
    + assert ((nx + 2 * kk) * (nz + 2 * kk) < (nx + 2 * g) * (nz + 2 * g))%Z by (apply Z.mul_lt_mono_nonneg; lia). lia.
    + lia.
Qed.

(** Some result, and it conserves. *)
Theorem C65_sums_to_zero_partial :
  forall (V : cvars) (bs : basis V) eq m k dims g nx ny nz u out s scratch i,
  (2 <= k <= 4)%nat -> (Z.of_nat k + 1 <= g)%Z ->
  setting bs eq dims g nx ny nz u out s -> scratch_fits k u scratch -> periodic_field dims g nx ny nz u ->
  exists s' out', apply_eno_diffusion bs eq m k dims u (s, scratch) out = Ok (s', out') /\
    isum dims g (nvec nx ny nz) (fun c => comp i (added out out' c)) = 0.
Proof.
  intros V bs eq m k dims g nx ny nz u out s scratch i Hk Hg (Hsq & Hd & Hx & Hy & Hz & Gx & Gy & Gz & Hu & Ho & Hs) Hsc Hp.
  destruct (apply_eno_spec bs eq m Hsq dims g nx ny nz k Hd Hk Hg Hx Hy Hz u out s scratch Hu Hs Ho Hsc)
    as (s' & sc' & o & E & _ & _ & _ & W).
  exists (s', sc'), o. split; [exact E|].
  rewrite (isum_ext dims g (nvec nx ny nz) _ (fun c => comp i (face_term dims (fun d => eface bs eq m k d (vget u)) c))).
  - apply face_term_sum; auto; try lia. intros d c Hdd Hc. now apply (eface_periodic bs eq m dims g nx ny nz k).
  - intros c Hc. unfold added. f_equal. apply added_term. apply W. apply interior_iff; [lia|exact Hc].
Qed.

(** The operator leaves its own volumes and arrays in a state it can be called
    with again, and the result does not depend on what they held. *)
Theorem C65_closed_form_partial :
  forall (V : cvars) (bs : basis V) eq m k g nx ny nz u out s scratch,
  (2 <= k <= 4)%nat -> (Z.of_nat k + 1 <= g)%Z ->
  setting bs eq 1 g nx ny nz u out s -> scratch_fits k u scratch ->
  exists s' scratch' out', apply_eno_diffusion bs eq m k 1 u (s, scratch) out = Ok ((s', scratch'), out') /\
    ext_dstate 1 g nx ny nz s' /\ scratch_fits k u scratch' /\ ext 1 g nx ny nz out' /\
    forall c, interior 1 g nx ny nz c ->
      vget out' c = vadd (vget out c) (rec_diffusion_term bs eq m k 1 (vget u) c).
Proof.
  intros V bs eq m k g nx ny nz u out s scratch Hk Hg (Hsq & Hd & Hx & Hy & Hz & Gx & Gy & Gz & Hu & Ho & Hs) Hsc.
  destruct (apply_eno_spec bs eq m Hsq 1 g nx ny nz k Hd Hk Hg Hx Hy Hz u out s scratch Hu Hs Ho Hsc)
    as (s' & sc' & o & E & X1 & X2 & X3 & W).
  exists s', sc', o. do 4 (split; [assumption|]). intros c Hc. rewrite W by exact Hc. f_equal.
  unfold rec_diffusion_term, face_term. change (zrange 0 1) with [0%Z]. cbn [fold_left].
  now rewrite !face_rec.
Qed.

Theorem C65_dissipates_partial :
  forall (V : cvars) (bs : basis V) eq m g nx ny nz u out s scratch,
  (3 <= g)%Z -> setting bs eq 1 g nx ny nz u out s -> scratch_fits 2 u scratch -> periodic_field 1 g nx ny nz u ->
  exists s' out', apply_eno_diffusion bs eq m 2 1 u (s, scratch) out = Ok (s', out') /\
    isum 1 g (nvec nx ny nz) (fun c => inner bs (dentropy eq (vget u c)) (added out out' c)) <= 0.
Proof.
  intros V bs eq m g nx ny nz u out s scratch Hg (Hsq & Hd & Hx & Hy & Hz & Gx & Gy & Gz & Hu & Ho & Hs) Hsc Hp.
  assert (Hk : (2 <= 2 <= 4)%nat) by lia. assert (Hg' : (Z.of_nat 2 + 1 <= g)%Z) by (simpl; lia).
  destruct (apply_eno_spec bs eq m Hsq 1 g nx ny nz 2 Hd Hk Hg' Hx Hy Hz u out s scratch Hu Hs Ho Hsc)
    as (s' & sc' & o & E & _ & _ & _ & W).
  exists (s', sc'), o. split; [exact E|].
  rewrite (isum_ext 1 g (nvec nx ny nz) _ (fun c => inner bs (dentropy eq (vget u c)) (face_term 1 (fun d => eface bs eq m 2 d (vget u)) c))).
  2:{ intros c Hc. unfold added. f_equal. apply added_term. apply W. apply interior_iff; [lia|exact Hc]. }
  rewrite (face_term_entropy bs 1 g nx ny nz Hd ltac:(lia) Gx Gy Gz (fun d => eface bs eq m 2 d (vget u))
    (fun d c Hdd Hc => eface_periodic bs eq m 1 g nx ny nz 2 Hd Hk Hg' Hx Hy Hz Gx Gy Gz (vget u) Hp d c Hdd Hc)
    (fun c => dentropy eq (vget u c))).
  2:{ intros d c Hdd Hc. cbv beta. rewrite move_move.
      now rewrite (shift_periodic 1 g nx ny nz ltac:(lia) ltac:(lia) Gx Gy Gz (vget u) Hp d c 1) by (auto; lia). }
  match goal with |- - isum 1 g _ ?f <= 0 => assert (0 <= isum 1 g (nvec nx ny nz) f); [|lra] end.
  apply Rle_trans with (isum 1 g (nvec nx ny nz) (fun _ => 0%R)); [right; symmetry; apply sum3_zero|].
  apply isum_le; auto. intros c _. change (zrange 0 1) with [0%Z]. cbn [map fold_right].
  pose proof (eface_nonneg bs eq m (vget u) c). lra.
Qed.

(** ** Burgers *)
(** The walk along a direction reads the entropy variables themselves. *)
Lemma walk_values (v : Z -> R) o : walk (v 0%Z) (fun j => v (j + 1)%Z - v j) o = v o.
Proof.
  unfold walk. destruct (Z_le_gt_dec 0 o) as [H|H].
  - rewrite (sumz_nil o 0) by lia. revert o H. apply natlike_ind.
    + rewrite sumz_nil by lia. ring.
    + intros o Ho IH. rewrite <- Z.add_1_r, sumz_snoc by lia. lra.
  - rewrite (sumz_nil 0 o) by lia. replace o with (- (- o))%Z by ring.
    assert (G : forall p, (0 <= p)%Z -> v 0%Z + 0 - sumz (- p) 0 (fun j => v (j + 1)%Z - v j) = v (- p)%Z).
    { apply natlike_ind.
      - rewrite sumz_nil by lia. change (- 0)%Z with 0%Z. ring.
      - intros p Hp IH. rewrite (sumz_cons (- Z.succ p)) by lia. replace (- Z.succ p + 1)%Z with (- p)%Z by lia. lra. }
    apply G. lia.
Qed.

Notation bsc := scalar_basis.
Notation beq := burgers_diffusion.
Definition ev (u : cell -> R) (c : cell) : R := entropy_var (u c).
Definition enov (k : nat) (v : Z -> R) : R * R := eno (V := scalar_cvars) k (fun x => x) v.

Lemma burgers_scl d (u : cell -> R) c : scl (V := scalar_cvars) bsc beq d u 0 c = ev u c /\ scr (V := scalar_cvars) bsc beq d u 0 c = ev u c.
Proof. unfold scl, scr, inner, ev. cbn. split; ring. Qed.

Lemma enov_ext k (v w : Z -> R) : (2 <= k <= 4)%nat -> (forall o, v o = w o) -> enov k v = enov k w.
Proof.
  intros Hk H. unfold enov, eno. cbv beta zeta. rewrite (eno_shift_ext (k - 1) (fun o => v o) (fun o => w o)) by (intros; apply H).
  pose proof (eno_shift_le (k - 1) (fun o => w o)) as Hs.
  destruct (stencil_ext (V := scalar_cvars) v w k (eno_shift (k - 1) (fun o => w o)) ltac:(lia) ltac:(lia)) as [-> ->]; [intros; apply H|reflexivity].
Qed.

Lemma burgers_face1 k (u : cell -> R) c : (2 <= k <= 4)%nat ->
  eface (V := scalar_cvars) bsc beq Roe k 0 u c =
  1 / 2 * (Rabs (1 / 2 * (u (move 0 1 c) + u c)) *
    (fst (enov k (fun o => ev u (move 0 (1 + o) c))) - snd (enov k (fun o => ev u (move 0 o c))))).
Proof.
  intros Hk. unfold eface, col_sum, fjump. cbn [bdim scalar_basis seq fold_right dcols deigs burgers_diffusion nth weights map].
  cbn [vadd vscal vzero scalar_cvars average].
  assert (EW : forall c' o, vwalk 0 (scl (V := scalar_cvars) bsc beq 0 u 0) (scr (V := scalar_cvars) bsc beq 0 u 0) 0 c' o = ev u (move 0 o c')).
  { intros c' o. rewrite <- (walk_values (fun o => ev u (move 0 o c')) o). unfold vwalk.
    rewrite (proj1 (burgers_scl 0 u c')), move_0.
    apply (walk_ext _ _ _ o (Z.min 0 o) (Z.max 0 o)); try lia. intros j _. unfold vjump.
    rewrite (proj1 (burgers_scl 0 u _)), (proj2 (burgers_scl 0 u _)), move_move. reflexivity. }
  assert (EV : forall c', vleft k 0 (scl (V := scalar_cvars) bsc beq 0 u 0) (scr (V := scalar_cvars) bsc beq 0 u 0) c' = fst (enov k (fun o => ev u (move 0 o c'))) /\
     vright k 0 (scl (V := scalar_cvars) bsc beq 0 u 0) (scr (V := scalar_cvars) bsc beq 0 u 0) c' = snd (enov k (fun o => ev u (move 0 o c')))).
  { intros c'. unfold vleft, vright, enov, eno. cbn [fst snd].
    rewrite (eno_shift_ext (k - 1) (vwalk 0 (scl (V := scalar_cvars) bsc beq 0 u 0) (scr (V := scalar_cvars) bsc beq 0 u 0) 0 c') (fun o => ev u (move 0 o c')) (fun o _ => EW c' o)).
    pose proof (eno_shift_le (k - 1) (fun o => ev u (move 0 o c'))) as Hs.
    destruct (stencil_ext (V := scalar_cvars) (vwalk 0 (scl (V := scalar_cvars) bsc beq 0 u 0) (scr (V := scalar_cvars) bsc beq 0 u 0) 0 c')
      (fun o => ev u (move 0 o c')) k (eno_shift (k - 1) (fun o => ev u (move 0 o c'))) ltac:(lia) ltac:(lia) (fun o _ => EW c' o)) as [-> ->].
    rewrite (proj1 (burgers_scl 0 u c')), (proj2 (burgers_scl 0 u c')).
    split; [reflexivity|]. rewrite Rminus_eq_0. apply Rplus_0_r. }
  rewrite (proj1 (EV (move 0 1 c))), (proj2 (EV c)).
  rewrite (enov_ext k (fun o => ev u (move 0 o (move 0 1 c))) (fun o => ev u (move 0 (1 + o) c)) Hk) by (intros; now rewrite move_move).
  match goal with |- ?a = ?b => change (@eq R a b) end. ring.
Qed.

(** A periodic line of [n] cells with the values [f 0], ..., [f (n - 1)]. *)
Definition line (f : Z -> R) (g n : Z) : vol scalar_cvars := mkvol (n + 2 * g) 1 1 (fun i => f ((i - g) mod n)%Z).
Definition zero_out (u : vol scalar_cvars) : vol scalar_cvars := mkvol (vnx u) (vny u) (vnz u) (fun _ => 0).
Definition line_state (f : Z -> R) (g n : Z) := fresh_dstate (V := scalar_cvars) 42 (line f g n).

Lemma line_get f g n x : vget (line f g n) (x, 0, 0)%Z = f ((x - g) mod n)%Z.
Proof. unfold vget, line, index. cbn [vnx vny vdat]. do 3 f_equal. Qed.
Lemma line_setting f g n : (0 < n)%Z -> (g <= n)%Z ->
  setting bsc beq 1 g n 1 1 (line f g n) (zero_out (line f g n)) (line_state f g n).
Proof.
  intros Hn Hg. split; [exact C38_burgers_square|].
  repeat (split; [lia || (intros; lia) || (repeat split)|]). repeat split.
Qed.
Lemma line_periodic f g n : (0 < n)%Z -> periodic_field 1 g n 1 1 (line f g n).
Proof.
  intros Hn [[x y] z] H. unfold in_volume in H. cbn in H. assert (y = 0 /\ z = 0)%Z as [-> ->] by lia.
  unfold image. cbn [Z.ltb Z.compare Pos.compare Pos.compare_cont]. rewrite !line_get. unfold periodic1.
  rewrite Z.add_simpl_l, Z.mod_mod by lia. reflexivity.
Qed.

(** Change of the entropy on a line: minus the sum over the faces. *)
Definition line_face (k : nat) (f : Z -> R) (n j : Z) : R :=
  1 / 2 * (Rabs (1 / 2 * (f ((j + 1) mod n)%Z + f (j mod n)%Z)) *
    (fst (enov k (fun o => entropy_var (f ((j + 1 + o) mod n)%Z))) - snd (enov k (fun o => entropy_var (f ((j + o) mod n)%Z))))).
Lemma line_entropy k f g n : (2 <= k <= 4)%nat -> (Z.of_nat k + 1 <= g)%Z -> (g <= n)%Z ->
  exists s' out', apply_eno_diffusion bsc beq Roe k 1 (line f g n) (line_state f g n, fresh_scratch k n 1 1) (zero_out (line f g n)) = Ok (s', out') /\
    isum 1 g (nvec n 1 1) (fun c => inner bsc (dentropy beq (vget (line f g n) c)) (added (zero_out (line f g n)) out' c)) =
    - sumz 0 n (fun j => line_face k f n j * (entropy_var (f ((j + 1) mod n)%Z) - entropy_var (f (j mod n)%Z))).
Proof.
  intros Hk Hg Hn.
  destruct (line_setting f g n ltac:(lia) Hn) as (Hsq & Hd & Hx & Hy & Hz & Gx & Gy & Gz & Hu & Ho & Hs).
  assert (Hp := line_periodic f g n ltac:(lia)).
  assert (Hsc : scratch_fits k (line f g n) (fresh_scratch k n 1 1)).
  { apply (C65_fresh_scratch_fits _ _ 1 g n 1 1); auto; try lia; reflexivity. }
  destruct (apply_eno_spec bsc beq Roe Hsq 1 g n 1 1 k Hd Hk Hg Hx Hy Hz (line f g n) _ _ _ Hu Hs Ho Hsc)
    as (s' & sc' & o & E & _ & _ & _ & W).
  exists (s', sc'), o. split; [exact E|].
  rewrite (isum_ext 1 g (nvec n 1 1) _ (fun c => inner bsc (dentropy beq (vget (line f g n) c))
     (face_term 1 (fun d => eface bsc beq Roe k d (vget (line f g n))) c))).
  2:{ intros c Hc. unfold added. f_equal. apply added_term. apply W. apply interior_iff; [lia|exact Hc]. }
  rewrite (face_term_entropy bsc 1 g n 1 1 Hd ltac:(lia) Gx Gy Gz (fun d => eface bsc beq Roe k d (vget (line f g n)))
    (fun d c Hdd Hc => eface_periodic bsc beq Roe 1 g n 1 1 k Hd Hk Hg Hx Hy Hz Gx Gy Gz (vget (line f g n)) Hp d c Hdd Hc)
    (fun c => dentropy beq (vget (line f g n) c))).
  2:{ intros d c Hdd Hc. cbv beta. rewrite move_move.
      now rewrite (shift_periodic 1 g n 1 1 ltac:(lia) ltac:(lia) Gx Gy Gz (vget (line f g n)) Hp d c 1) by (auto; lia). }
  f_equal. unfold isum, sum3. cbn [ilo ihi nvec Z.ltb Z.eqb Z.compare Pos.compare Pos.compare_cont Pos.eqb].
  unfold sumz at 1 2. change (zrange 0 1) with [0%Z]. cbn [map fold_right]. rewrite !Rplus_0_r.
  rewrite (Z.add_comm g n), <- (Z.add_0_l g) at 1. rewrite sumz_shift.
  apply sumz_ext. intros j Hj. change (zrange 0 1) with [0%Z]. cbn [map fold_right].
  rewrite Rplus_0_r, burgers_face1 by exact Hk.
  assert (EM : forall o, move 0 o ((j + g)%Z, 0%Z, 0%Z) = ((j + g + o)%Z, 0%Z, 0%Z)) by reflexivity.
  assert (EG : forall o, vget (line f g n) ((j + g + o)%Z, 0%Z, 0%Z) = f ((j + o) mod n)%Z).
  { intros o'. rewrite line_get. do 2 f_equal. ring. }
  unfold inner, line_face. cbn [comps scalar_basis combine map fold_right fst snd dentropy burgers_diffusion].
  rewrite !EM, !EG. rewrite <- (Z.add_0_r (j + g)), !EG, Z.add_0_r.
  rewrite (enov_ext k (fun o => ev (vget (line f g n)) (move 0 (1 + o) ((j + g + 0)%Z, 0%Z, 0%Z))) (fun o => entropy_var (f ((j + 1 + o) mod n)%Z)) Hk).
  2:{ intros o'. unfold ev. rewrite Z.add_0_r, EM, EG. do 3 f_equal. ring. }
  rewrite (enov_ext k (fun o => ev (vget (line f g n)) (move 0 o ((j + g + 0)%Z, 0%Z, 0%Z))) (fun o => entropy_var (f ((j + o) mod n)%Z)) Hk).
  2:{ intros o'. unfold ev. now rewrite Z.add_0_r, EM, EG. }
  ring.
Qed.

(** Evaluation of the reconstruction for given comparisons. *)
Definition cmp (b : bool) (x y : R) : Prop := if b then x * x < y * y else y * y <= x * x.
Lemma cmp_shift b x y : cmp b x y -> (if Rlt_dec (Rabs x) (Rabs y) then 1 else 0)%nat = (if b then 1 else 0)%nat.
Proof.
  intros H. destruct b, (Rlt_dec _ _) as [L|L]; auto; exfalso.
  - apply L. apply Rsqr_lt_abs_0. exact H.
  - apply Rsqr_lt_abs_1 in L. unfold Rsqr in L. cbn in H. lra.
Qed.
Lemma enov3 (W : Z -> R) b1 b2 :
  cmp b1 (W 0%Z - W (-1)%Z) (W 1%Z - W 0%Z) ->
  cmp b2 (W 1%Z - W 0%Z - (W 0%Z - W (-1)%Z)) (W 2%Z - W 1%Z - (W 1%Z - W 0%Z)) ->
  enov 3 W = (let s := ((if b1 then 1 else 0) + (if b2 then 1 else 0))%nat in
    (stencil_left (V := scalar_cvars) W 3 s, stencil_right (V := scalar_cvars) W 3 s)).
Proof.
  intros H1 H2. unfold enov, eno. change (3 - 1)%nat with 2%nat. cbn [eno_shift ddiff].
  change (-1 + 1)%Z with 0%Z. change (0 + 1)%Z with 1%Z. change (1 + 1)%Z with 2%Z.
  rewrite (cmp_shift b1) by exact H1. rewrite (cmp_shift b2) by exact H2. now destruct b1, b2.
Qed.
Lemma enov4 (W : Z -> R) b1 b2 b3 :
  cmp b1 (W 0%Z - W (-1)%Z) (W 1%Z - W 0%Z) ->
  cmp b2 (W 1%Z - W 0%Z - (W 0%Z - W (-1)%Z)) (W 2%Z - W 1%Z - (W 1%Z - W 0%Z)) ->
  cmp b3 (W 2%Z - W 1%Z - (W 1%Z - W 0%Z) - (W 1%Z - W 0%Z - (W 0%Z - W (-1)%Z)))
         (W 3%Z - W 2%Z - (W 2%Z - W 1%Z) - (W 2%Z - W 1%Z - (W 1%Z - W 0%Z))) ->
  enov 4 W = (let s := ((if b1 then 1 else 0) + (if b2 then 1 else 0) + (if b3 then 1 else 0))%nat in
    (stencil_left (V := scalar_cvars) W 4 s, stencil_right (V := scalar_cvars) W 4 s)).
Proof.
  intros H1 H2 H3. unfold enov, eno. change (4 - 1)%nat with 3%nat. cbn [eno_shift ddiff].
  change (-1 + 1)%Z with 0%Z. change (0 + 1)%Z with 1%Z. change (1 + 1)%Z with 2%Z. change (2 + 1)%Z with 3%Z.
  rewrite (cmp_shift b1) by exact H1. rewrite (cmp_shift b2) by exact H2. rewrite (cmp_shift b3) by exact H3. now destruct b1, b2, b3.
Qed.

(** Order three: a line of six cells on which the entropy grows, although the
    grid has the four ghost layers the closed form needs. *)
Definition f3 (j : Z) : R := if (j =? 2)%Z then 5 / 4 else if (j <? 2)%Z then 3 / 2 else if (j =? 4)%Z then 1 / 4 else 1 / 2.
Lemma e1_4 : entropy_var (1 / 4) = - (24 / 7). Proof. unfold entropy_var. field. Qed.
Lemma e1_2 : entropy_var (1 / 2) = - (4 / 3). Proof. unfold entropy_var. field. Qed.
Lemma e3_4 : entropy_var (3 / 4) = - (8 / 15). Proof. unfold entropy_var. field. Qed.
Lemma e5_4 : entropy_var (5 / 4) = 8 / 15. Proof. unfold entropy_var. field. Qed.
Lemma e3_2 : entropy_var (3 / 2) = 4 / 3. Proof. unfold entropy_var. field. Qed.
Lemma e7_4 : entropy_var (7 / 4) = 24 / 7. Proof. unfold entropy_var. field. Qed.

Ltac evalR := lazy -[Rplus Rmult Ropp Rinv Rdiv Rminus R0 R1 IZR Rabs entropy_var Rlt Rle];
  rewrite ?e1_4, ?e1_2, ?e3_4, ?e5_4, ?e3_2, ?e7_4.
Ltac case3 W :=
  first [ rewrite (enov3 W true true) by (evalR; lra) | rewrite (enov3 W true false) by (evalR; lra)
        | rewrite (enov3 W false true) by (evalR; lra) | rewrite (enov3 W false false) by (evalR; lra) ].
Ltac cases3 := repeat match goal with |- context [enov 3 ?W] => case3 W end.

Theorem C65_order_three_refuted :
  exists g n f, (3 + 1 <= g)%Z /\ setting bsc beq 1 g n 1 1 (line f g n) (zero_out (line f g n)) (line_state f g n) /\
    periodic_field 1 g n 1 1 (line f g n) /\ (forall j, 0 < f j < 2) /\
    exists s' out', apply_eno_diffusion bsc beq Roe 3 1 (line f g n) (line_state f g n, fresh_scratch 3 n 1 1) (zero_out (line f g n)) = Ok (s', out') /\
      0 < isum 1 g (nvec n 1 1) (fun c => inner bsc (dentropy beq (vget (line f g n) c)) (added (zero_out (line f g n)) out' c)).
Proof.
  exists 4%Z, 6%Z, f3. split; [lia|]. split; [apply line_setting; lia|]. split; [apply line_periodic; lia|].
  split; [intros j; unfold f3; destruct (j =? 2)%Z, (j <? 2)%Z, (j =? 4)%Z; lra|].
  destruct (line_entropy 3 f3 4 6) as (s' & o & E & S); try lia. exists s', o. split; [exact E|]. rewrite S.
  change (sumz 0 6) with (fun h => h 0%Z + (h 1%Z + (h 2%Z + (h 3%Z + (h 4%Z + (h 5%Z + 0)))))). cbv beta.
  unfold line_face. cases3.
  evalR. rewrite ?Rabs_pos_eq by lra. lra.
Qed.

(** Order four. *)
Definition f4 (j : Z) : R := if (j mod 3 =? 0)%Z then 7 / 4 else if (j mod 3 =? 1)%Z then 3 / 4 else 3 / 2.
Ltac case4 W :=
  first [ rewrite (enov4 W true true true) by (evalR; lra) | rewrite (enov4 W true true false) by (evalR; lra)
        | rewrite (enov4 W true false true) by (evalR; lra) | rewrite (enov4 W true false false) by (evalR; lra)
        | rewrite (enov4 W false true true) by (evalR; lra) | rewrite (enov4 W false true false) by (evalR; lra)
        | rewrite (enov4 W false false true) by (evalR; lra) | rewrite (enov4 W false false false) by (evalR; lra) ].
Ltac cases4 := repeat match goal with |- context [enov 4 ?W] => case4 W end.
Theorem C65_order_four_refuted :
  exists g n f, (4 + 1 <= g)%Z /\ setting bsc beq 1 g n 1 1 (line f g n) (zero_out (line f g n)) (line_state f g n) /\
    periodic_field 1 g n 1 1 (line f g n) /\ (forall j, 0 < f j < 2) /\
    exists s' out', apply_eno_diffusion bsc beq Roe 4 1 (line f g n) (line_state f g n, fresh_scratch 4 n 1 1) (zero_out (line f g n)) = Ok (s', out') /\
      0 < isum 1 g (nvec n 1 1) (fun c => inner bsc (dentropy beq (vget (line f g n) c)) (added (zero_out (line f g n)) out' c)).
Proof.
  exists 5%Z, 6%Z, f4. split; [lia|]. split; [apply line_setting; lia|]. split; [apply line_periodic; lia|].
  split; [intros j; unfold f4; destruct (j mod 3 =? 0)%Z, (j mod 3 =? 1)%Z; lra|].
  destruct (line_entropy 4 f4 5 6) as (s' & o & E & S); try lia. exists s', o. split; [exact E|]. rewrite S.
  change (sumz 0 6) with (fun h => h 0%Z + (h 1%Z + (h 2%Z + (h 3%Z + (h 4%Z + (h 5%Z + 0)))))). cbv beta.
  unfold line_face. cases4.
  evalR. rewrite ?Rabs_pos_eq by lra. lra.
Qed.

(** Order two with two ghost layers, the number the operator asks for
    (getNumberOfGhostCells of the reconstruction), which is also what the
    simulator allocates for tecno1 + eno2 (examples/tecnoburgers): the slope in
    the first ghost cell behind the last cell comes from an entry of the array
    that is never written, so the term does not sum to zero. *)
Definition f2 (j : Z) : R := if (j =? 0)%Z then 1 else 1 / 2.
Lemma e1 : entropy_var 1 = 0. Proof. unfold entropy_var. field. Qed.
Theorem C65_ghost_layers_refuted :
  exists g n f, g = 2%Z /\ setting bsc beq 1 g n 1 1 (line f g n) (zero_out (line f g n)) (line_state f g n) /\
    periodic_field 1 g n 1 1 (line f g n) /\ (forall j, 0 < f j < 2) /\
    exists s' out', apply_eno_diffusion bsc beq Roe 2 1 (line f g n) (line_state f g n, fresh_scratch 2 n 1 1) (zero_out (line f g n)) = Ok (s', out') /\
      isum 1 g (nvec n 1 1) (fun c => comp 0 (added (zero_out (line f g n)) out' c)) <> 0.
Proof.
  exists 2%Z, 2%Z, f2. split; [reflexivity|]. split; [apply line_setting; lia|]. split; [apply line_periodic; lia|].
  split; [intros j; unfold f2; destruct (j =? 0)%Z; lra|].
  eexists. eexists. split.
  { lazy -[Rplus Rmult Rmax Ropp Rinv Rdiv Rminus R0 R1 IZR Rabs entropy_var Rlt_dec]. reflexivity. }
  lazy -[Rplus Rmult Rmax Ropp Rinv Rdiv Rminus R0 R1 IZR Rabs entropy_var Rlt Rlt_dec].
  repeat match goal with |- context [Rlt_dec (Rabs ?a) (Rabs ?b)] =>
    destruct (Rlt_dec (Rabs a) (Rabs b)) as [L|_];
      [exfalso; apply Rsqr_lt_abs_1 in L; unfold Rsqr in L; rewrite ?e1, ?e1_2 in L; lra|] end.
  lazy -[Rplus Rmult Rmax Ropp Rinv Rdiv Rminus R0 R1 IZR Rabs entropy_var Rlt].
  rewrite ?Rabs_pos_eq by lra. rewrite ?e1, ?e1_2. lra.
Qed.

(** In two dimensions: the values of the neighbours are read at the memory
    offsets -1 and 1, along x, also when the differences are along y. *)
Definition plane (f : Z -> R) (g nx ny : Z) : vol scalar_cvars :=
  mkvol (nx + 2 * g) (ny + 2 * g) 1 (fun i => f ((i / (nx + 2 * g) - g) mod ny)%Z).
Lemma plane_get f g nx ny x y : (0 <= x < nx + 2 * g)%Z -> vget (plane f g nx ny) (x, y, 0%Z) = f ((y - g) mod ny)%Z.
Proof.
  intros Hx. unfold vget, plane, index. cbn [vnx vny vdat]. rewrite !Z.mul_0_l, Z.add_0_l.
  rewrite Z.add_comm, Z.div_add, Z.div_small by lia. reflexivity.
Qed.
Lemma plane_setting f g nx ny : (0 < g)%Z -> (g <= nx)%Z -> (g <= ny)%Z ->
  setting bsc beq 2 g nx ny 1 (plane f g nx ny) (zero_out (plane f g nx ny)) (fresh_dstate (V := scalar_cvars) 42 (plane f g nx ny)).
Proof.
  intros Hg H1 H2. split; [exact C38_burgers_square|].
  repeat (split; [lia || (intros; lia) || (repeat split)|]). repeat split.
Qed.
Lemma plane_periodic f g nx ny : (0 < g)%Z -> (0 < nx)%Z -> (0 < ny)%Z -> periodic_field 2 g nx ny 1 (plane f g nx ny).
Proof.
  intros Hg H1 H2 [[x y] z] H. unfold in_volume in H. cbn [Z.ltb Z.compare Pos.compare Pos.compare_cont] in H.
  assert (z = 0)%Z by lia. subst z.
  unfold image. cbn [Z.ltb Z.compare Pos.compare Pos.compare_cont].
  pose proof (Z.mod_pos_bound (x - g) nx ltac:(lia)).
  rewrite !plane_get by (unfold periodic1; lia). unfold periodic1.
  rewrite Z.add_simpl_l, Z.mod_mod by lia. reflexivity.
Qed.

(** Order two along y on data that do not depend on x: the slope is always the
    difference to the next cell. *)
Lemma order_two_y SL SR c j :
  vjump 1 SL SR c = j -> vjump 1 SL SR (move 0 (-1) c) = j ->
  vleft 2 1 SL SR c = SL c - j / 2 /\ vright 2 1 SL SR c = SR c + j / 2.
Proof.
  intros H0 H1. unfold vleft, vright. set (W := vwalk 1 SL SR 0 c).
  assert (W0 : W 0%Z = SL c) by (unfold W, vwalk; apply walk_0).
  assert (E1 : W 1%Z - W 0%Z = j).
  { unfold W, vwalk. pose proof (walk_step (SL c) (fun o => vjump 1 SL SR (move 0 o c)) 0) as E. cbv beta in E.
    rewrite move_0 in E. rewrite <- H0. exact E. }
  assert (E2 : W 0%Z - W (-1)%Z = j).
  { unfold W, vwalk. rewrite <- H1. exact (walk_step (SL c) (fun o => vjump 1 SL SR (move 0 o c)) (-1)). }
  change (2 - 1)%nat with 1%nat. cbn [eno_shift]. clearbody W.
  destruct (Rlt_dec _ _) as [H|H]; unfold stencil_left, stencil_right.
  - change (0 + 1)%nat with 1%nat. cbn [nth eno_coef lincomb].
    change (- Z.of_nat 1)%Z with (-1)%Z. change (-1 + 1)%Z with 0%Z. cbn [vadd vscal vzero scalar_cvars]. split; lra.
  - change (0 + 0)%nat with 0%nat. cbn [nth eno_coef lincomb].
    change (- Z.of_nat 0)%Z with 0%Z. change (0 + 1)%Z with 1%Z. cbn [vadd vscal vzero scalar_cvars]. split; lra.
Qed.

Definition plane_face (f : Z -> R) (n j : Z) : R :=
  let v i := entropy_var (f (i mod n)%Z) in
  1 / 2 * (Rabs (1 / 2 * (f ((j + 1) mod n)%Z + f (j mod n)%Z)) * (((v (j + 1)%Z - v j) - (v (j + 2)%Z - v (j + 1)%Z)) / 2)).
Lemma burgers_face_y f g nx ny x y : (0 < x < nx + 2 * g)%Z ->
  eface (V := scalar_cvars) bsc beq Roe 2 1 (vget (plane f g nx ny)) (x, y, 0%Z) = plane_face f ny (y - g).
Proof.
  intros Hx. set (u := vget (plane f g nx ny)).
  assert (EG : forall x' y', (0 <= x' < nx + 2 * g)%Z -> u (x', y', 0%Z) = f ((y' - g) mod ny)%Z) by (intros; now apply plane_get).
  assert (EM : forall o c', move 1 o c' = let '(a, b, e) := c' in (a, (b + o)%Z, e)) by (intros o [[a b] e]; reflexivity).
  assert (EX : forall o a b e, move 0 o (a, b, e) = ((a + o)%Z, b, e)) by reflexivity.
  unfold eface, col_sum, fjump. cbn [bdim scalar_basis seq fold_right dcols deigs burgers_diffusion nth weights map].
  cbn [vadd vscal vzero scalar_cvars average].
  assert (EJ : forall x' y', (0 <= x' < nx + 2 * g)%Z ->
    vjump 1 (scl (V := scalar_cvars) bsc beq 1 u 0) (scr (V := scalar_cvars) bsc beq 1 u 0) (x', y', 0%Z) =
    entropy_var (f ((y' + 1 - g) mod ny)%Z) - entropy_var (f ((y' - g) mod ny)%Z)).
  { intros x' y' Hx'. unfold vjump. rewrite (proj1 (burgers_scl 1 u _)), (proj2 (burgers_scl 1 u _)). unfold ev.
    rewrite EM. now rewrite !EG. }
  assert (EV : forall y',
    vleft 2 1 (scl (V := scalar_cvars) bsc beq 1 u 0) (scr (V := scalar_cvars) bsc beq 1 u 0) (x, y', 0%Z) =
      entropy_var (f ((y' - g) mod ny)%Z) - (entropy_var (f ((y' + 1 - g) mod ny)%Z) - entropy_var (f ((y' - g) mod ny)%Z)) / 2 /\
    vright 2 1 (scl (V := scalar_cvars) bsc beq 1 u 0) (scr (V := scalar_cvars) bsc beq 1 u 0) (x, y', 0%Z) =
      entropy_var (f ((y' - g) mod ny)%Z) + (entropy_var (f ((y' + 1 - g) mod ny)%Z) - entropy_var (f ((y' - g) mod ny)%Z)) / 2).
  { intros y'. destruct (order_two_y (scl (V := scalar_cvars) bsc beq 1 u 0) (scr (V := scalar_cvars) bsc beq 1 u 0) (x, y', 0%Z)
      (entropy_var (f ((y' + 1 - g) mod ny)%Z) - entropy_var (f ((y' - g) mod ny)%Z))) as [-> ->].
    - apply EJ. lia.
    - rewrite EX. apply EJ. lia.
    - rewrite (proj1 (burgers_scl 1 u _)), (proj2 (burgers_scl 1 u _)). unfold ev. now rewrite EG by lia. }
  rewrite !EM. rewrite (proj1 (EV (y + 1)%Z)), (proj2 (EV y)), !EG by lia. unfold plane_face.
  replace (y - g + 1)%Z with (y + 1 - g)%Z by ring. replace (y - g + 2)%Z with (y + 1 + 1 - g)%Z by ring.
  match goal with |- ?a = ?b => change (@eq R a b) end. field.
Qed.

Definition f5 (j : Z) : R := if (j =? 0)%Z then 1 / 100 else if (j =? 1)%Z then 1 / 40 else if (j =? 2)%Z then 1 / 5 else if (j =? 3)%Z then 7 / 4 else 1 / 25.
Lemma e1_100 : entropy_var (1 / 100) = - (19800 / 199). Proof. unfold entropy_var. field. Qed.
Lemma e1_40 : entropy_var (1 / 40) = - (3120 / 79). Proof. unfold entropy_var. field. Qed.
Lemma e1_5 : entropy_var (1 / 5) = - (40 / 9). Proof. unfold entropy_var. field. Qed.
Lemma e1_25 : entropy_var (1 / 25) = - (1200 / 49). Proof. unfold entropy_var. field. Qed.

Theorem C65_y_direction_refuted :
  exists g nx ny f, (2 + 1 <= g)%Z /\
    setting bsc beq 2 g nx ny 1 (plane f g nx ny) (zero_out (plane f g nx ny)) (fresh_dstate (V := scalar_cvars) 42 (plane f g nx ny)) /\
    periodic_field 2 g nx ny 1 (plane f g nx ny) /\ (forall j, 0 < f j < 2) /\
    exists s' out', apply_eno_diffusion bsc beq Roe 2 2 (plane f g nx ny)
        (fresh_dstate (V := scalar_cvars) 42 (plane f g nx ny), fresh_scratch 2 nx ny 1) (zero_out (plane f g nx ny)) = Ok (s', out') /\
      0 < isum 2 g (nvec nx ny 1) (fun c => inner bsc (dentropy beq (vget (plane f g nx ny) c)) (added (zero_out (plane f g nx ny)) out' c)).
Proof.
  exists 3%Z, 3%Z, 5%Z, f5. split; [lia|]. split; [apply plane_setting; lia|]. split; [apply plane_periodic; lia|].
  split; [intros j; unfold f5; destruct (j =? 0)%Z, (j =? 1)%Z, (j =? 2)%Z, (j =? 3)%Z; lra|].
  set (u := plane f5 3 3 5).
  destruct (plane_setting f5 3 3 5 ltac:(lia) ltac:(lia) ltac:(lia)) as (Hsq & Hd & Hx & Hy & Hz & Gx & Gy & Gz & Hu & Ho & Hs).
  assert (Hp := plane_periodic f5 3 3 5 ltac:(lia) ltac:(lia) ltac:(lia)).
  fold u in Hu, Ho, Hs, Hp.
  assert (Hk : (2 <= 2 <= 4)%nat) by lia. assert (Hg : (Z.of_nat 2 + 1 <= 3)%Z) by (simpl; lia).
  assert (Hsc : scratch_fits 2 u (fresh_scratch 2 3 5 1)).
  { apply (C65_fresh_scratch_fits _ _ 2 3 3 5 1); auto; simpl; try lia; reflexivity. }
  destruct (apply_eno_spec bsc beq Roe Hsq 2 3 3 5 1 2 Hd Hk Hg Hx Hy Hz u _ _ _ Hu Hs Ho Hsc)
    as (s' & sc' & o & E & _ & _ & _ & W).
  exists (s', sc'), o. split; [exact E|].
  rewrite (isum_ext 2 3 (nvec 3 5 1) _ (fun c => inner bsc (dentropy beq (vget u c)) (face_term 2 (fun d => eface bsc beq Roe 2 d (vget u)) c))).
  2:{ intros c Hc. unfold added. f_equal. apply added_term. apply W. apply interior_iff; [lia|exact Hc]. }
  rewrite (face_term_entropy bsc 2 3 3 5 1 Hd ltac:(lia) Gx Gy Gz (fun d => eface bsc beq Roe 2 d (vget u))
    (fun d c Hdd Hc => eface_periodic bsc beq Roe 2 3 3 5 1 2 Hd Hk Hg Hx Hy Hz Gx Gy Gz (vget u) Hp d c Hdd Hc)
    (fun c => dentropy beq (vget u c))).
  2:{ intros d c Hdd Hc. cbv beta. rewrite move_move.
      now rewrite (shift_periodic 2 3 3 5 1 ltac:(lia) ltac:(lia) Gx Gy Gz (vget u) Hp d c 1) by (auto; lia). }
  set (h := fun y : Z => plane_face f5 5 (y - 3) * (entropy_var (f5 ((y + 1 - 3) mod 5)%Z) - entropy_var (f5 ((y - 3) mod 5)%Z))).
  rewrite (isum_ext 2 3 (nvec 3 5 1) _ (fun c => h (coord 1 c))).
  2:{ intros [[x y] z] Hc.
      pose proof (Hc 0%Z ltac:(unfold dir; lia)) as H0. pose proof (Hc 2%Z ltac:(unfold dir; lia)) as H2.
      cbn in H0, H2. assert (z = 0)%Z by lia. subst z. clear Hc H2.
      change (zrange 0 2) with [0%Z; 1%Z]. cbn [map fold_right].
      change (move 0 1 (x, y, 0%Z)) with ((x + 1)%Z, y, 0%Z). change (move 1 1 (x, y, 0%Z)) with (x, (y + 1)%Z, 0%Z).
      unfold u. rewrite burgers_face_y by lia. rewrite !plane_get by lia.
      unfold inner. cbn [comps scalar_basis combine map fold_right fst snd dentropy burgers_diffusion]. unfold h. cbn [coord Z.eqb Pos.eqb]. ring. }
  change (isum 2 3 (nvec 3 5 1)) with (fun h : cell -> R => sumz 0 1 (fun z => sumz 3 8 (fun y => sumz 3 6 (fun x => h (x, y, z))))).
  cbv beta. cbn [coord Z.eqb Pos.eqb].
  change (sumz 0 1) with (fun h => h 0%Z + 0). change (sumz 3 8) with (fun h => h 3%Z + (h 4%Z + (h 5%Z + (h 6%Z + (h 7%Z + 0))))).
  change (sumz 3 6) with (fun h => h 3%Z + (h 4%Z + (h 5%Z + 0))). cbv beta.
  unfold h, plane_face. evalR. rewrite ?e1_100, ?e1_40, ?e1_5, ?e1_25. rewrite ?Rabs_pos_eq by lra. lra.
Qed.

(** The hypotheses hold: Burgers, six cells, three ghost layers, new operator;
    and a plane of 3 x 5 cells. *)
Example C65_nonvacuous :
  setting bsc beq 1 3 6 1 1 (line f3 3 6) (zero_out (line f3 3 6)) (line_state f3 3 6) /\
  scratch_fits 2 (line f3 3 6) (fresh_scratch 2 6 1 1) /\ periodic_field 1 3 6 1 1 (line f3 3 6) /\
  (2 <= 2 <= 4)%nat /\ (Z.of_nat 2 + 1 <= 3)%Z /\
  vget (line f3 3 6) (5, 0, 0)%Z <> vget (line f3 3 6) (6, 0, 0)%Z /\
  setting bsc beq 2 3 3 5 1 (plane f5 3 3 5) (zero_out (plane f5 3 3 5)) (fresh_dstate (V := scalar_cvars) 42 (plane f5 3 3 5)) /\
  periodic_field 2 3 3 5 1 (plane f5 3 3 5).
Proof.
  split; [apply line_setting; lia|]. split.
  { apply (C65_fresh_scratch_fits _ _ 1 3 6 1 1); auto; simpl; try lia; repeat split. }
  split; [apply line_periodic; lia|]. split; [lia|]. split; [simpl; lia|].
  split; [rewrite !line_get; evalR; lra|]. split; [apply plane_setting; lia|apply plane_periodic; lia].
Qed.
(** The term is not zero: order two at the face between the cells 2 and 3. *)
Example C65_term_nonzero : line_face 2 f3 6 2 <> 0.
Proof.
  unfold line_face, enov, eno. change (2 - 1)%nat with 1%nat. cbn [eno_shift ddiff].
  repeat match goal with |- context [Rlt_dec (Rabs ?a) (Rabs ?b)] =>
    rewrite (cmp_shift true a b) by (evalR; lra) || rewrite (cmp_shift false a b) by (evalR; lra) end.
  evalR. rewrite ?Rabs_pos_eq by lra. lra.
Qed.

Print Assumptions C65_sums_to_zero_partial.
Print Assumptions C65_closed_form_partial.
Print Assumptions C65_dissipates_partial.
Print Assumptions C65_fresh_scratch_fits.
Print Assumptions C65_ghost_layers_refuted.
Print Assumptions C65_order_three_refuted.
Print Assumptions C65_order_four_refuted.
Print Assumptions C65_y_direction_refuted.
