(** Two-point fluxes in incremental form. *)
From Coq Require Import Reals Lra Psatz ZArith.
From Verif Require Import M_Scalar S_Monotone.
Open Scope R_scope.

Definition incremental (F : R -> R -> R) (w : R -> R) (kap : R) (C D : R -> R -> R) : Prop :=
  (forall l u r, F l u - F u r = C l u * (l - u) + D u r * (r - u)) /\
  (forall l r, 0 <= C l r) /\ (forall l r, 0 <= D l r) /\
  (forall l r m, w l <= m -> w r <= m -> C l r + D l r <= m) /\
  (forall l u r m M, w l <= m -> w u <= m -> w r <= m -> l <= M -> u <= M -> r <= M ->
     C l u * (l - u) + D u r * (r - u) <= kap * m * (M - u)) /\
  (forall l u r m M, w l <= m -> w u <= m -> w r <= m -> M <= l -> M <= u -> M <= r ->
     kap * m * (M - u) <= C l u * (l - u) + D u r * (r - u)).
(** It suffices that the two coefficients of a cell are bounded together. *)
Lemma incremental_sum F w kap (C D : R -> R -> R) :
  (forall l u r, F l u - F u r = C l u * (l - u) + D u r * (r - u)) ->
  (forall l r, 0 <= C l r) -> (forall l r, 0 <= D l r) ->
  (forall l r m, w l <= m -> w r <= m -> C l r + D l r <= m) ->
  (forall l u r m, w l <= m -> w u <= m -> w r <= m -> C l u + D u r <= kap * m) -> incremental F w kap C D.
Proof.
  intros H1 H2 H3 H4 H5. split; [exact H1|]. split; [exact H2|]. split; [exact H3|]. split; [exact H4|].
  split; intros l u r m M Hl Hu Hr Ml Mu Mr; pose proof (H5 l u r m Hl Hu Hr) as K; pose proof (H2 l u) as C0;
    pose proof (H3 u r) as D0; generalize dependent (C l u); generalize dependent (D u r); intros q1 q2 q3 K q4; nra.
Qed.

Lemma abs_le x m : Rabs x <= m <-> - m <= x <= m.
Proof. split; intros H. - pose proof (Rle_abs x). pose proof (Rle_abs (- x)). rewrite Rabs_Ropp in *. lra. - apply Rabs_le. lra. Qed.

Ltac rmax := repeat match goal with
  | |- context [Rmax ?a ?b] => let H := fresh in
      destruct (Rle_dec a b) as [H|H];
      [rewrite (Rmax_right a b) by lra|rewrite (Rmax_left a b) by lra]
  | |- context [Rmin ?a ?b] => let H := fresh in
      destruct (Rle_dec a b) as [H|H];
      [rewrite (Rmin_left a b) by lra|rewrite (Rmin_right a b) by lra]
  end.

(** Godunov's flux for Burgers. *)
Definition god_c (l r : R) : R :=
  if Rlt_dec l 0 then if Rlt_dec 0 r then r * r / (2 * (r - l)) else 0
  else Rmax 0 ((l + r) / 2).
Definition god_d (l r : R) : R :=
  if Rlt_dec 0 r then if Rlt_dec l 0 then l * l / (2 * (r - l)) else 0
  else Rmax 0 (- (l + r) / 2).

Lemma god_c_bounds l r : 0 <= god_c l r.
Proof.
  unfold god_c. destruct (Rlt_dec l 0); [destruct (Rlt_dec 0 r); [|lra]|apply Rmax_l].
  apply Rmult_le_pos; [nra|]. left. apply Rinv_0_lt_compat. lra.
Qed.
Lemma god_d_bounds l r : 0 <= god_d l r.
Proof.
  unfold god_d. destruct (Rlt_dec 0 r); [destruct (Rlt_dec l 0); [|lra]|apply Rmax_l].
  apply Rmult_le_pos; [nra|]. left. apply Rinv_0_lt_compat. lra.
Qed.
Lemma god_c_raref l r : l < 0 -> 0 < r -> r * r / (2 * (r - l)) <= r / 2.
Proof. intros. apply Rmult_le_reg_r with (2 * (r - l)); [lra|]. unfold Rdiv. rewrite Rmult_assoc, Rinv_l by lra. nra. Qed.
Lemma god_d_raref l r : l < 0 -> 0 < r -> l * l / (2 * (r - l)) <= - l / 2.
Proof. intros. apply Rmult_le_reg_r with (2 * (r - l)); [lra|]. unfold Rdiv. rewrite Rmult_assoc, Rinv_l by lra. nra. Qed.

Lemma god_split l r :
  flux_value Burgers Godunov l r - r * r / 2 = god_c l r * (l - r) /\
  l * l / 2 - flux_value Burgers Godunov l r = god_d l r * (r - l).
Proof.
  unfold flux_value, god_c, god_d, point_flux.
  destruct (Rlt_dec l 0) as [Hl|Hl].
  - rewrite (Rmax_right l 0) by lra. destruct (Rlt_dec 0 r) as [Hr|Hr].
    + rewrite (Rmin_right r 0) by lra. rewrite Rmax_left by lra. split; field; lra.
    + rewrite (Rmin_left r 0) by lra. rewrite Rmax_right by nra. rewrite Rmax_right by lra. split; field.
  - rewrite (Rmax_left l 0) by lra. destruct (Rlt_dec 0 r) as [Hr|Hr].
    + rewrite (Rmin_right r 0) by lra. rewrite Rmax_left by nra. rewrite Rmax_right by lra. split; field.
    + rewrite (Rmin_left r 0) by lra. destruct (Rle_dec 0 (l + r)).
      * rewrite (Rmax_left (l * l / 2)) by nra. rewrite (Rmax_right 0 ((l + r) / 2)) by lra.
        rewrite Rmax_left by lra. split; field.
      * rewrite (Rmax_right (l * l / 2)) by nra. rewrite (Rmax_left 0 ((l + r) / 2)) by lra.
        rewrite Rmax_right by lra. split; field.
Qed.

Lemma godunov_incremental :
  incremental (flux_value Burgers Godunov) (wave_speed Burgers) 1 god_c god_d.
Proof.
  apply incremental_sum.
  - intros l u r. destruct (god_split l u) as [A _]. destruct (god_split u r) as [_ B]. lra.
  - apply god_c_bounds.
  - apply god_d_bounds.
  - intros l r m Hl Hr. simpl in Hl, Hr. apply abs_le in Hl, Hr. unfold god_c, god_d.
    pose proof (god_c_raref l r). pose proof (god_d_raref l r).
    destruct (Rlt_dec l 0), (Rlt_dec 0 r); rmax; lra.
  - intros l u r m Hl Hu Hr. simpl in Hl, Hu, Hr. apply abs_le in Hl, Hu, Hr. unfold god_c, god_d.
    pose proof (god_c_raref l u). pose proof (god_d_raref u r).
    destruct (Rlt_dec l 0), (Rlt_dec 0 u), (Rlt_dec 0 r), (Rlt_dec u 0); rmax; lra.
Qed.

Lemma burgers_roe_godunov l r : flux_value Burgers BurgersRoe l r = flux_value Burgers Godunov l r.
Proof.
  unfold flux_value, point_flux. destruct (Rge_dec l (- r)); symmetry.
  - apply Rmax_left. rmax; nra.
  - apply Rmax_right. rmax; nra.
Qed.

Lemma incremental_ext F F' w k C D : (forall l r, F l r = F' l r) -> incremental F w k C D -> incremental F' w k C D.
Proof. intros H [A B]. split; [|exact B]. intros. rewrite <- !H. apply A. Qed.

(** Rusanov: [s] is the slope of the secant.  Both parts of the increment of a cell do not decrease with the value of
    the neighbour, so the increment is largest if both neighbours have the largest value. *)
Lemma rusanov_incremental e (s : R -> R -> R) :
  let a l r := Rmax (wave_speed e l) (wave_speed e r) in
  (forall l r, point_flux e l - point_flux e r = s l r * (l - r)) ->
  (forall l r m, wave_speed e l <= m -> wave_speed e r <= m -> - m <= s l r <= m) ->
  (forall x, 0 <= wave_speed e x) ->
  (forall u x y, x <= y -> (s x u + a x u) * (x - u) <= (s y u + a y u) * (y - u)) ->
  (forall u x y, x <= y -> (a u x - s u x) * (x - u) <= (a u y - s u y) * (y - u)) ->
  (forall x, Rabs (eigenvalue e x) = wave_speed e x) ->
  incremental (flux_value e Rusanov) (wave_speed e) 1
    (fun l r => 1 / 2 * (s l r + a l r)) (fun l r => 1 / 2 * (a l r - s l r)).
Proof.
  intros a Hs Hb H0 HG HH He.
  assert (Ha : forall l r, - a l r <= s l r <= a l r) by (intros; apply Hb; [apply Rmax_l|apply Rmax_r]).
  assert (Hm : forall l r m, wave_speed e l <= m -> wave_speed e r <= m -> a l r <= m) by (intros; now apply Rmax_lub).
  assert (Sy : forall x u, (s x u + a x u) * (x - u) + (a u x - s u x) * (x - u) = 2 * (a x u * (x - u))).
  { intros x u. assert (s x u * (x - u) = s u x * (x - u)) by (pose proof (Hs x u); pose proof (Hs u x); lra).
    assert (a u x = a x u) by apply Rmax_comm. rewrite H1. lra. }
  split; [|split; [|split; [|split; [|split]]]].
  - intros l u r. unfold flux_value. rewrite !He. fold (a l u) (a u r).
    pose proof (Hs l u). pose proof (Hs u r). lra.
  - intros l r. specialize (Ha l r). lra.
  - intros l r. specialize (Ha l r). lra.
  - intros l r m Hl Hr. specialize (Hm l r m Hl Hr). lra.
  - intros l u r m M Hl Hu Hr Ml Mu Mr.
    assert (X : exists N, l <= N /\ u <= N /\ r <= N /\ N <= M /\ wave_speed e N <= m).
    { destruct (Rle_dec l r); [destruct (Rle_dec u r); [exists r|exists u]|destruct (Rle_dec u l); [exists l|exists u]];
        repeat split; auto; lra. }
    destruct X as (N & N1 & N2 & N3 & N4 & N5). pose proof (HG u l N N1) as G1. pose proof (HH u r N N3) as G2.
    pose proof (Sy N u) as G3. pose proof (Hm N u m N5 Hu) as G4. pose proof (H0 u) as G5.
    assert (a N u * (N - u) <= m * (N - u)) by (apply Rmult_le_compat_r; lra).
    assert (m * (N - u) <= m * (M - u)) by (apply Rmult_le_compat_l; lra). lra.
  - intros l u r m M Hl Hu Hr Ml Mu Mr.
    assert (X : exists N, N <= l /\ N <= u /\ N <= r /\ M <= N /\ wave_speed e N <= m).
    { destruct (Rle_dec l r); [destruct (Rle_dec u l); [exists u|exists l]|destruct (Rle_dec u r); [exists u|exists r]];
        repeat split; auto; lra. }
    destruct X as (N & N1 & N2 & N3 & N4 & N5). pose proof (HG u N l N1) as G1. pose proof (HH u N r N3) as G2.
    pose proof (Sy N u) as G3. pose proof (Hm N u m N5 Hu) as G4. pose proof (H0 u) as G5.
    assert (m * (N - u) <= a N u * (N - u)) by nra.
    assert (m * (M - u) <= m * (N - u)) by (apply Rmult_le_compat_l; lra). lra.
Qed.

Lemma burgers_rusanov_incremental : exists C D,
  incremental (flux_value Burgers Rusanov) (wave_speed Burgers) 1 C D.
Proof.
  do 2 eexists. apply (rusanov_incremental Burgers (fun l r => (l + r) / 2)); cbn [wave_speed point_flux eigenvalue].
  - intros. field.
  - intros l r m Hl Hr. apply abs_le in Hl, Hr. lra.
  - apply Rabs_pos.
  - intros u x y H. unfold Rabs, Rmax.
    destruct (Rcase_abs u), (Rcase_abs x), (Rcase_abs y); repeat (destruct (Rle_dec _ _)); nra.
  - intros u x y H. unfold Rabs, Rmax.
    destruct (Rcase_abs u), (Rcase_abs x), (Rcase_abs y); repeat (destruct (Rle_dec _ _)); nra.
  - reflexivity.
Qed.

Lemma rmax_in u x q : u * u = q * q -> 0 <= q -> - q <= x <= q -> Rmax (x * x) (u * u) = q * q.
Proof. intros E Q X. rewrite E. apply Rmax_right. nra. Qed.
Lemma rmax_out u x q : u * u = q * q -> 0 <= q -> x <= - q \/ q <= x -> Rmax (x * x) (u * u) = x * x.
Proof. intros E Q X. rewrite E. apply Rmax_left. nra. Qed.
(** Piecewise monotone functions. *)
Lemma pieces (f : R -> R) q : 0 <= q -> (forall x y, x <= y -> y <= - q -> f x <= f y) ->
  (forall x y, x <= y -> - q <= x -> y <= q -> f x <= f y) -> (forall x y, x <= y -> q <= x -> f x <= f y) ->
  forall x y, x <= y -> f x <= f y.
Proof.
  intros Q A B C x y Hxy.
  destruct (Rle_dec y (- q)); [now apply A|]. destruct (Rle_dec q x); [now apply C|].
  assert (f x <= f (Rmax x (- q))).
  { destruct (Rle_dec x (- q)); [rewrite Rmax_right by lra; apply A; lra|rewrite Rmax_left by lra; lra]. }
  assert (f (Rmin y q) <= f y).
  { destruct (Rle_dec y q); [rewrite Rmin_left by lra; lra|rewrite Rmin_right by lra; apply C; lra]. }
  assert (f (Rmax x (- q)) <= f (Rmin y q)).
  { apply B; unfold Rmax, Rmin; destruct (Rle_dec x (- q)), (Rle_dec y q); lra. }
  lra.
Qed.
Lemma cubic_up u x y : x <= y ->
  ((x * x + x * u + u * u) / 3 + Rmax (x * x) (u * u)) * (x - u) <= ((y * y + y * u + u * u) / 3 + Rmax (y * y) (u * u)) * (y - u).
Proof.
  intros Hxy. pose (q := Rabs u). assert (Q : 0 <= q) by apply Rabs_pos.
  assert (E : u * u = q * q) by (unfold q, Rabs; destruct (Rcase_abs u); ring).
  assert (U : - q <= u <= q) by (unfold q, Rabs; destruct (Rcase_abs u); lra).
  clearbody q. revert x y Hxy. apply (pieces (fun x => ((x * x + x * u + u * u) / 3 + Rmax (x * x) (u * u)) * (x - u)) q Q); intros x y Hxy.
  - intros Hy. cbv beta. rewrite !(rmax_out u _ q E Q) by (left; lra).
    assert (4 * (x * x * x) - 3 * (u * (x * x)) <= 4 * (y * y * y) - 3 * (u * (y * y))); [|lra].
    assert (0 <= (y - x) * (4 * (x * x + x * y + y * y) - 3 * (u * (x + y)))); [|lra]. apply Rmult_le_pos; [lra|]. nra.
  - intros H1 H2. cbv beta. rewrite !(rmax_in u _ q E Q) by lra.
    assert (0 <= (y - x) * (x * x + x * y + y * y + 3 * (q * q))); [|lra]. apply Rmult_le_pos; [lra|]. nra.
  - intros H1. cbv beta. rewrite !(rmax_out u _ q E Q) by (right; lra).
    assert (0 <= (y - x) * (4 * (x * x + x * y + y * y) - 3 * (u * (x + y)))); [|lra]. apply Rmult_le_pos; [lra|]. nra.
Qed.
Lemma cubic_down u x y : x <= y ->
  (Rmax (u * u) (x * x) - (u * u + u * x + x * x) / 3) * (x - u) <= (Rmax (u * u) (y * y) - (u * u + u * y + y * y) / 3) * (y - u).
Proof.
  intros Hxy. pose (q := Rabs u). assert (Q : 0 <= q) by apply Rabs_pos.
  assert (E : u * u = q * q) by (unfold q, Rabs; destruct (Rcase_abs u); ring).
  assert (U : - q <= u <= q) by (unfold q, Rabs; destruct (Rcase_abs u); lra).
  clearbody q. revert x y Hxy. apply (pieces (fun x => (Rmax (u * u) (x * x) - (u * u + u * x + x * x) / 3) * (x - u)) q Q); intros x y Hxy.
  - intros Hy. cbv beta. rewrite !(Rmax_comm (u * u)). rewrite !(rmax_out u _ q E Q) by (left; lra).
    assert (0 <= (y - x) * (2 * (x * x + x * y + y * y) - 3 * (u * (x + y)))); [|lra]. apply Rmult_le_pos; [lra|]. nra.
  - intros H1 H2. cbv beta. rewrite !(Rmax_comm (u * u)). rewrite !(rmax_in u _ q E Q) by lra.
    assert (0 <= (y - x) * (3 * (q * q) - (x * x + x * y + y * y))); [|lra]. apply Rmult_le_pos; [lra|]. nra.
  - intros H1. cbv beta. rewrite !(Rmax_comm (u * u)). rewrite !(rmax_out u _ q E Q) by (right; lra).
    assert (0 <= (y - x) * (2 * (x * x + x * y + y * y) - 3 * (u * (x + y)))); [|lra]. apply Rmult_le_pos; [lra|]. nra.
Qed.

Lemma cubic_rusanov_incremental : exists C D,
  incremental (flux_value Cubic Rusanov) (wave_speed Cubic) 1 C D.
Proof.
  do 2 eexists. apply (rusanov_incremental Cubic (fun l r => (l * l + l * r + r * r) / 3)); cbn [wave_speed point_flux eigenvalue].
  - intros. field.
  - intros l r m Hl Hr. rewrite Rabs_pos_eq in Hl by nra. rewrite Rabs_pos_eq in Hr by nra.
    pose proof (Rle_0_sqr (l - r)) as Q1. pose proof (Rle_0_sqr (l + r)) as Q2. unfold Rsqr in *. lra.
  - intros. apply Rabs_pos.
  - intros u x y H. rewrite !(Rabs_pos_eq (_ * _)) by nra. apply cubic_up; exact H.
  - intros u x y H. rewrite !(Rabs_pos_eq (_ * _)) by nra. apply cubic_down; exact H.
  - reflexivity.
Qed.

(** Upwind schemes for fluxes with non-negative slopes. *)
Lemma upwind_incremental F w (f : R -> R) (s : R -> R -> R) :
  (forall l r, F l r = f l) ->
  (forall l r, f l - f r = s l r * (l - r)) -> (forall l r, 0 <= s l r) ->
  (forall l r m, w l <= m -> w r <= m -> s l r <= m) ->
  incremental F w 1 s (fun _ _ => 0).
Proof.
  intros HF Hs H0 Hb. apply incremental_sum; auto.
  - intros l u r. rewrite !HF, Hs. ring.
  - intros. lra.
  - intros. rewrite Rplus_0_r. auto.
  - intros l u r m Hl Hu Hr. rewrite Rplus_0_r, Rmult_1_l. auto.
Qed.

Theorem monotone_incremental e n k : monotone_scheme e n k ->
  exists C D, incremental (flux_value e n) (wave_speed e) (/ k) C D.
Proof.
  intros []; rewrite Rinv_1.
  - do 2 eexists. apply godunov_incremental.
  - do 2 eexists. eapply incremental_ext; [|apply godunov_incremental]. intros. symmetry. apply burgers_roe_godunov.
  - apply burgers_rusanov_incremental.
  - do 2 eexists. apply (upwind_incremental _ _ (fun x => x) (fun _ _ => 1)); simpl; intros; lra.
  - do 2 eexists. apply (upwind_incremental _ _ (fun x => x) (fun _ _ => 1)); simpl; intros; try lra.
    rewrite Rabs_R1, Rmax_left; lra.
  - do 2 eexists.
    apply (upwind_incremental _ _ (fun x => Rmax x 0)
      (fun l r => if Req_EM_T l r then 0 else (Rmax l 0 - Rmax r 0) / (l - r))).
    + reflexivity.
    + intros. destruct (Req_EM_T l r); [subst; ring|field; lra].
    + intros. destruct (Req_EM_T l r); [lra|].
      destruct (Rlt_dec l r).
      * replace ((Rmax l 0 - Rmax r 0) / (l - r)) with ((Rmax r 0 - Rmax l 0) / (r - l)) by (field; lra).
        apply Rmult_le_pos; [rmax; lra|]. left. apply Rinv_0_lt_compat. lra.
      * apply Rmult_le_pos; [rmax; lra|]. left. apply Rinv_0_lt_compat. lra.
    + intros l r m Hl Hr. cbn [wave_speed] in Hl, Hr. destruct (Req_EM_T l r); [lra|].
      apply Rle_trans with 1; [|lra]. destruct (Rlt_dec l r).
      * apply Rmult_le_reg_r with (r - l); [lra|].
        replace ((Rmax l 0 - Rmax r 0) / (l - r) * (r - l)) with (Rmax r 0 - Rmax l 0) by (field; lra). rmax; lra.
      * apply Rmult_le_reg_r with (l - r); [lra|].
        replace ((Rmax l 0 - Rmax r 0) / (l - r) * (l - r)) with (Rmax l 0 - Rmax r 0) by (field; lra). rmax; lra.
  - do 2 eexists. apply (upwind_incremental _ _ (point_flux Cubic) (fun l r => (l * l + l * r + r * r) / 3)).
    + intros. unfold flux_value. destruct (Rge_dec _ 0) as [_|H]; [reflexivity|].
      exfalso. apply H. destruct (Req_EM_T l r); [nra|].
      replace ((point_flux Cubic l - point_flux Cubic r) / (l - r)) with ((l * l + l * r + r * r) / 3) by (simpl; field; lra).
      nra.
    + intros. simpl. field.
    + intros. nra.
    + intros l r m Hl Hr. cbn [wave_speed] in Hl, Hr. rewrite Rabs_pos_eq in Hl by nra. rewrite Rabs_pos_eq in Hr by nra.
      pose proof (Rle_0_sqr (l - r)) as Q1. unfold Rsqr in *. lra.
  - apply cubic_rusanov_incremental.
Qed.

Lemma wave_speed_nonneg e n k x : monotone_scheme e n k -> 0 <= wave_speed e x.
Proof. intros []; simpl; try apply Rabs_pos; lra. Qed.
Lemma wave_speed_between e n k a b x : monotone_scheme e n k -> a <= x <= b ->
  wave_speed e x <= Rmax (wave_speed e a) (wave_speed e b).
Proof.
  intros S H. assert (X : e = Burgers \/ e = Cubic \/ e = Linear) by (destruct S; auto). clear S.
  assert (Ab : Rabs x <= Rmax (Rabs a) (Rabs b)).
  { apply abs_le. pose proof (Rmax_l (Rabs a) (Rabs b)). pose proof (Rmax_r (Rabs a) (Rabs b)).
    pose proof (Rle_abs b). pose proof (Rle_abs (- a)). rewrite Rabs_Ropp in *. lra. }
  destruct X as [->|[->| ->]]; cbn [wave_speed].
  - exact Ab.
  - rewrite !Rabs_mult. pose proof (Rabs_pos x). pose proof (Rabs_pos a). pose proof (Rabs_pos b).
    revert Ab. unfold Rmax. destruct (Rle_dec (Rabs a) (Rabs b)), (Rle_dec (Rabs a * Rabs a) (Rabs b * Rabs b)); nra.
  - apply Rmax_l.
Qed.
