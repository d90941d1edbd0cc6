(** Reconstructions and the Tecno flux for a flow seen in more components or in other
    units of mass. *)
From Coq Require Import ZArith Reals List Bool Lia Lra String.
From Verif Require Import M_Base M_Vec M_Flux M_Combined M_Scalar M_Recon M_Config
  S_Symmetry S_Embed L_Euler L_SymScheme L_EulerSym L_TecnoSym L_Embed.
From Verif Require Import M_Euler.
Import ListNotations.
Open Scope R_scope.

Lemma embed_seen n m u : embed n m u = seen (pad n m) 1 u.
Proof. unfold embed, seen. now rewrite !Rmult_1_l, vscal_one. Qed.
Lemma times_seen n k (u : euler_cvars n) : times k u = seen (fun v => v) k u.
Proof. reflexivity. Qed.

(** * More components *)
Section Pad.
Variables (n m : nat) (gamma : R).
Hypothesis Hnm : (n <= m)%nat.
Notation tau := (embed n m).

Lemma embed_add a c : tau (vadd a c) = vadd (tau a) (tau c).
Proof. rewrite !embed_seen. apply seen_add, pad_add. Qed.
Lemma embed_scal x a : tau (vscal x a) = vscal x (tau a).
Proof. rewrite !embed_seen. apply seen_scal. apply pad_scal. Qed.

Lemma pad_lift f (Hf : f 0 0 0 = 0) a b c :
  lift3 (vec_lifting m) f (pad n m a) (pad n m b) (pad n m c) = pad n m (lift3 (vec_lifting n) f a b c).
Proof.
  revert m Hnm a b c. induction n as [|q IH]; intros m0 H a b c.
  - cbn [pad]. apply comp_ext; intros i. rewrite (comp_lift3 _ (vec_lifting m0)) by exact Hf. rewrite comp_zero. exact Hf.
  - destruct m0 as [|m0]; [lia|]. cbn [pad vec_lifting pair_lifting lift3 fst snd].
    rewrite IH by lia. reflexivity.
Qed.
Lemma odd_zero f : odd3 f -> f 0 0 0 = 0.
Proof. intros H. specialize (H 0 0 0). rewrite Ropp_0 in H. lra. Qed.
Lemma embed_lift f : odd3 f -> forall a b c,
  lift3 (euler_lifting m) f (tau a) (tau b) (tau c) = tau (lift3 (euler_lifting n) f a b c).
Proof.
  intros Hf a b c. apply cons_ext.
  - reflexivity.
  - change (lift3 (vec_lifting m) f (pad n m (mom a)) (pad n m (mom b)) (pad n m (mom c))
            = pad n m (lift3 (vec_lifting n) f (mom a) (mom b) (mom c))).
    apply pad_lift. now apply odd_zero.
  - reflexivity.
Qed.

Definition pP (w : prim n) : prim m := mkprim (p_rho w) (pad n m (p_u w)) (p_p w).
Lemma to_prim_P u : to_prim m gamma (tau u) = pP (to_prim n gamma u).
Proof. unfold to_prim, pP. cbn [p_rho p_u p_p embed rho_ mom en mkcons fst snd]. now rewrite pad_scal, pad_dot. Qed.
Lemma to_cons_P w : to_cons m gamma (pP w) = tau (to_cons n gamma w).
Proof. unfold to_cons, pP, embed. cbn [p_rho p_u p_p rho_ mom en mkcons fst snd]. now rewrite pad_scal, pad_dot. Qed.
Lemma padd_P a b : padd m (pP a) (pP b) = pP (padd n a b).
Proof. unfold padd, pP. cbn [p_rho p_u p_p]. now rewrite pad_add. Qed.
Lemma psub_P a b : psub m (pP a) (pP b) = pP (psub n a b).
Proof. unfold psub, pP. cbn [p_rho p_u p_p]. now rewrite pad_add, pad_scal. Qed.
Lemma pscal_P k a : pscal m k (pP a) = pP (pscal n k a).
Proof. unfold pscal, pP. cbn [p_rho p_u p_p]. now rewrite pad_scal. Qed.
Lemma pclamp_P a b : pclamp m (pP a) (pP b) = pP (pclamp n a b).
Proof. reflexivity. Qed.
Lemma damp_P a b : wenof2_damp m gamma (pP a) (pP b) = wenof2_damp n gamma a b.
Proof. unfold wenof2_damp, wenof2_ll, pP. cbn [p_rho p_u p_p]. now rewrite !pad_dot. Qed.
Lemma carries_wenof2_P : carries_recon tau (wenof2_recon n gamma) (wenof2_recon m gamma).
Proof.
  split; [reflexivity|]. intros [|l [|u [|r [|]]]] Hl; try (exfalso; cbn [List.length rec_ghosts wenof2_recon] in Hl; lia).
  cbn [wenof2_recon rec_fun map]. unfold wenof2. rewrite !to_prim_P.
  change (rho_ (tau l)) with (rho_ l). change (rho_ (tau u)) with (rho_ u). change (rho_ (tau r)) with (rho_ r).
  cbn [fst snd]. repeat rewrite ?psub_P, ?pscal_P, ?padd_P, ?pclamp_P, ?damp_P. now rewrite !to_cons_P.
Qed.
Lemma ind_P a : comp 0 (tau a) = 1 * comp 0 a.
Proof. rewrite Rmult_1_l. reflexivity. Qed.
Lemma embed_recon name rc rc' : find_recon (Euler n) gamma name = Some rc -> find_recon (Euler m) gamma name = Some rc' ->
  carries_recon tau rc rc'.
Proof.
  unfold find_recon. pose proof (or_introl (B := 1 = -1) (eq_refl 1)) as S1.
  pose proof embed_add as TA. pose proof embed_scal as TS. pose proof embed_lift as TL.
  repeat (match goal with |- (if ?b then _ else _) = _ -> _ => destruct b end; [intros [= <-] [= <-]|]); try discriminate.
  - apply carries_none.
  - now apply carries_eno with (s := 1); [..|intros a; apply ind_P].
  - now apply carries_eno with (s := 1); [..|intros a; apply ind_P].
  - now apply carries_eno with (s := 1); [..|intros a; apply ind_P].
  - now apply carries_weno2 with (s := 1); [..|intros a; apply ind_P].
  - now apply carries_weno with (s := 1); [..|intros a; apply ind_P].
  - apply carries_wenof2_P.
  - apply carries_limiter; [exact TL|exact mc_odd].
  - apply carries_limiter; [exact TL|exact mm_odd].
Qed.

Lemma zv_P u : z_vel m gamma (tau u) = pad n m (z_vel n gamma u) /\ z_first m gamma (tau u) = z_first n gamma u /\
  z_last m gamma (tau u) = z_last n gamma u.
Proof.
  unfold z_vel, z_first, z_last. rewrite to_prim_P. cbn [p_p p_u pP embed rho_ mkcons fst]. rewrite pad_scal. auto.
Qed.
End Pad.

Lemma bar00 : bar 0 0 = 0.
Proof. unfold bar. lra. Qed.
Ltac zpad g l r :=
  let A := fresh in let B := fresh in let C := fresh in let A' := fresh in let B' := fresh in let C' := fresh in
  match goal with |- context [embed ?n ?m l] =>
    let Q := fresh in assert (Q : (n <= m)%nat) by lia;
    destruct (zv_P n m g Q l) as (A & B & C); destruct (zv_P n m g Q r) as (A' & B' & C') end;
  unfold tecno_form1, tecno_form2, tecno_form3; rewrite ?A, ?B, ?C, ?A', ?B', ?C'; clear A B C A' B' C';
  repeat match goal with |- context [z_vel ?n ?g ?u] => generalize (z_vel n g u); intro end;
  repeat match goal with |- context [z_first ?n ?g ?u] => generalize (z_first n g u); intro end;
  repeat match goal with |- context [z_last ?n ?g ?u] => generalize (z_last n g u); intro end.

Lemma embed_tecno n m gamma d : (1 <= n <= m)%nat -> (m <= 3)%nat -> (d < n)%nat -> forall l r : cons n,
  tecno_form gamma m d (embed n m l) (embed n m r) = embed n m (tecno_form gamma n d l r).
Proof.
  intros Hn Hm Hd l r.
  destruct n as [|[|[|[|n]]]]; try lia; destruct m as [|[|[|[|m]]]]; try lia; destruct d as [|[|[|d]]]; try lia; cbn [tecno_form].
  all: zpad gamma l r; vecs; cbn [pad fst snd vzero vec_cvars pair_cvars scalar_cvars unit_cvars]; rewrite ?bar00; means;
    apply cons_ext; cbn [rho_ mom en mkcons fst snd embed pad vzero vec_cvars pair_cvars scalar_cvars unit_cvars];
    [ unfold Rdiv; ring
    | unfold Rdiv; repeat (apply (f_equal2 pair); [rring|]); try exact (eq_refl tt)
    | try reflexivity; try (apply f_equal; unfold Rdiv; ring) ].
Qed.

Lemma embed_flux n m gamma k d : (1 <= n <= m)%nat -> (m <= 3)%nat -> (0 <= d < Z.of_nat n)%Z ->
  carries (embed n m) (euler_numflux n gamma k) d (euler_numflux m gamma k) d.
Proof.
  intros Hn Hm Hd.
  assert (Q : (Z.to_nat d < n <= m)%nat) by lia. assert (Hnm : (n <= m)%nat) by lia.
  assert (Mn : forall a, vnth m (Z.to_nat d) (pad n m a) = vnth n (Z.to_nat d) a) by (intros a; now apply pad_nth).
  assert (Mt : forall x a, vset m (Z.to_nat d) x (pad n m a) = pad n m (vset n (Z.to_nat d) x a)) by (intros x a; now apply pad_set).
  assert (Md : forall a c, vdot m (pad n m a) (pad n m c) = vdot n a c) by (intros a c; now apply pad_dot).
  assert (Mi : forall a c, pad n m a = pad n m c -> a = c) by (intros a c; now apply pad_inj).
  assert (T : forall f f' : numflux _, carries (seen (pad n m) 1) f d f' d -> carries (embed n m) f d f' d).
  { intros f f'. unfold carries. destruct f as [f|st f], f' as [f'|st' f']; auto.
    - intros H l r. rewrite !embed_seen. apply H.
    - intros [E H]. split; [exact E|]. intros us Hl. rewrite embed_seen, <- H by exact Hl. f_equal.
      apply map_ext. intros u. apply embed_seen. }
  pose proof Rlt_0_1 as L1.
  assert (Tc : carries (embed n m) (Flux2 (tecno1 gamma n)) d (Flux2 (tecno1 gamma m)) d).
  { apply T. apply carries_tecno_seen; auto using pad_add, pad_scal. intros l r. rewrite <- !embed_seen.
    now apply embed_tecno. }
  pose proof (embed_add n m) as TA. pose proof (embed_scal n m) as TS.
  destruct k.
  - apply T. apply carries_hll_seen; auto using pad_add, pad_scal.
  - apply T. apply carries_hll3_seen; auto using pad_add, pad_scal.
  - apply T. apply carries_central_seen; auto using pad_add, pad_scal.
  - exact Tc.
  - now apply (carries4 _ TA TS).
  - now apply (carries6 _ TA TS).
Qed.

(** * Other units of mass *)
Section Units.
Context {V : cvars}.
Variables (tau : V -> V) (k : R).
Hypothesis Hk : 0 < k.
Hypothesis tau_add : forall a c, tau (vadd a c) = vadd (tau a) (tau c).
Hypothesis tau_scal : forall x a, tau (vscal x a) = vscal x (tau a).
Variable ind : V -> R.
Hypothesis Hind : forall a, ind (tau a) = k * ind a.

Lemma ddiff_k l v v' x : (forall o, v' o = k * v o) -> ddiff l v' x = k * ddiff l v x.
Proof. revert x; induction l; intros x H; cbn [ddiff]; [apply H|]. rewrite !IHl by assumption. ring. Qed.
Lemma shift_k l v v' : (forall o, v' o = k * v o) -> eno_shift l v' = eno_shift l v.
Proof.
  intros H; induction l; cbn [eno_shift]; [reflexivity|].
  rewrite IHl, !(ddiff_k (S l) v v') by assumption. rewrite !Rabs_mult, (Rabs_right k) by lra.
  destruct (Rlt_dec (k * _) _) as [A|A], (Rlt_dec (Rabs _) _) as [B|B]; try reflexivity; exfalso.
  - apply B. now apply Rmult_lt_reg_l in A.
  - apply A. now apply Rmult_lt_compat_l.
Qed.
Lemma carries_eno_k q : carries_recon tau (eno_recon q ind) (eno_recon q ind).
Proof.
  split; [reflexivity|]. intros us _. cbn [eno_recon rec_fun]. unfold eno, stencil_left, stencil_right. cbn [fst snd].
  rewrite (shift_k (q - 1) (fun o => ind (at_ q us o)) (fun o => ind (at_ q (map tau us) o))).
  - now rewrite !(lincomb_tau tau tau_add tau_scal _ (at_ q us) (at_ q (map tau us))) by (apply at_map; assumption).
  - intros o. now rewrite (at_map tau tau_scal), Hind.
Qed.

Definition homogeneous (f : R -> R -> R -> R) : Prop := forall a b c, f (k * a) (k * b) (k * c) = k * f a b c.
Variable L : lifting V.
Hypothesis Hlift : forall f, homogeneous f -> forall a b c, lift3 L f (tau a) (tau b) (tau c) = tau (lift3 L f a b c).
Lemma carries_limiter_k slope : homogeneous slope -> carries_recon tau (limiter_recon L slope) (limiter_recon L slope).
Proof.
  intros Ho. split; [reflexivity|]. intros [|l [|m [|r [|]]]] Hl; try len3.
  cbn [limiter_recon rec_fun map fst snd]. f_equal; apply Hlift; intros a b c; unfold face_left, face_right; rewrite Ho; field.
Qed.
Lemma sign_k x : sign (k * x) = sign x.
Proof.
  unfold sign. destruct (Rgt_dec (k * x) 0) as [A|A], (Rgt_dec x 0) as [B|B]; try reflexivity.
  - exfalso. apply B. apply (Rmult_lt_reg_l k); lra.
  - exfalso. apply A. now apply Rmult_gt_0_compat.
  - destruct (Req_EM_T (k * x) 0) as [C|C], (Req_EM_T x 0) as [D|D]; try reflexivity.
    + exfalso. apply Rmult_integral in C. lra.
    + exfalso. apply C. rewrite D. ring.
Qed.
Lemma Rmin_k a b : Rmin (k * a) (k * b) = k * Rmin a b.
Proof.
  unfold Rmin. destruct (Rle_dec (k * a) (k * b)) as [A|A], (Rle_dec a b) as [B|B]; try reflexivity; exfalso.
  - apply B. now apply Rmult_le_reg_l in A.
  - apply A. apply Rmult_le_compat_l; lra.
Qed.
Lemma Rabs_k a : Rabs (k * a) = k * Rabs a.
Proof. rewrite Rabs_mult, (Rabs_right k) by lra. reflexivity. Qed.
Lemma minmod2_k a b : minmod2 (k * a) (k * b) = k * minmod2 a b.
Proof. unfold minmod2. rewrite !sign_k, !Rabs_k, Rmin_k. destruct (Req_EM_T _ _); ring. Qed.
Lemma minmod3_k a b c : minmod3 (k * a) (k * b) (k * c) = k * minmod3 a b c.
Proof. unfold minmod3. rewrite !sign_k, !Rabs_k, !Rmin_k. repeat destruct (Req_EM_T _ _); ring. Qed.
Lemma mc_homogeneous : homogeneous mc_slope.
Proof. intros a b c. unfold mc_slope. rewrite <- minmod3_k. f_equal; field. Qed.
Lemma mm_homogeneous : homogeneous mm_slope.
Proof. intros a b c. unfold mm_slope. rewrite <- minmod2_k. f_equal; ring. Qed.
End Units.

Section Mass.
Variables (n : nat) (gamma k : R).
Hypothesis Hk : 0 < k.
Notation tau := (@times n k).
Lemma times_scal u : tau u = vscal k u.
Proof. reflexivity. Qed.
Lemma times_add a c : tau (vadd a c) = vadd (tau a) (tau c).
Proof. rewrite !times_scal. apply comp_ext; intros i. rewrite !comp_scal, !comp_add, !comp_scal. ring. Qed.
Lemma times_vscal x a : tau (vscal x a) = vscal x (tau a).
Proof. rewrite !times_scal. apply comp_ext; intros i. rewrite !comp_scal. ring. Qed.
Lemma times_lift f : homogeneous k f -> forall a b c,
  lift3 (euler_lifting n) f (tau a) (tau b) (tau c) = tau (lift3 (euler_lifting n) f a b c).
Proof.
  intros Hf a b c. rewrite !times_scal.
  assert (Z : forall q (x y z : rvec q), lift3 (vec_lifting q) f (vscal k x) (vscal k y) (vscal k z) = vscal k (lift3 (vec_lifting q) f x y z)).
  { induction q as [|q IH]; intros x y z; [reflexivity|]. cbn. rewrite IH. apply (f_equal2 pair); [|reflexivity]. apply Hf. }
  apply cons_ext.
  - apply Hf.
  - apply Z.
  - apply Hf.
Qed.
Lemma times_recon name rc : In name ["none"; "eno2"; "eno3"; "eno4"; "mc"; "mm"]%string ->
  find_recon (Euler n) gamma name = Some rc -> carries_recon tau rc rc.
Proof.
  intros Hin. pose proof times_add as TA. pose proof times_vscal as TS. pose proof times_lift as TL.
  cbn [In] in Hin; repeat (destruct Hin as [<-|Hin]); try destruct Hin; intros [= <-].
  - apply carries_none.
  - now apply (carries_eno_k tau k Hk).
  - now apply (carries_eno_k tau k Hk).
  - now apply (carries_eno_k tau k Hk).
  - apply (carries_limiter_k tau k); [exact TL|now apply mc_homogeneous].
  - apply (carries_limiter_k tau k); [exact TL|now apply mm_homogeneous].
Qed.
Lemma times_flux f d : match f with HLL | HLL3 | ECentral => True | _ => False end ->
  carries tau (euler_numflux n gamma f) d (euler_numflux n gamma f) d.
Proof.
  intros Hf. change tau with (@seen n n (fun v => v) k). destruct f; try destruct Hf.
  - now apply carries_hll_seen.
  - now apply carries_hll3_seen.
  - now apply carries_central_seen.
Qed.
End Mass.

(** The Tecno flux between positive states. *)
Lemma logmean_k k l r : 0 < k -> 0 < l -> 0 < r -> logmean (k * l) (k * r) = k * logmean l r.
Proof.
  intros Hk Hl Hr. unfold logmean. rewrite !ln_mult by assumption.
  replace (ln k + ln r - (ln k + ln l)) with (ln r - ln l) by ring.
  replace (k * r - k * l) with (k * (r - l)) by ring.
  destruct (Req_EM_T (k * (r - l)) 0) as [A|A], (Req_EM_T (r - l) 0) as [B|B].
  - ring.
  - apply Rmult_integral in A. lra.
  - rewrite B in A. lra.
  - destruct (Req_EM_T _ _); [ring|]. unfold Rdiv. ring.
Qed.
Lemma z_times n gamma k u : 0 < k -> rho_ u <> 0 ->
  z_first n gamma (times k u) = z_first n gamma u /\ z_vel n gamma (times k u) = z_vel n gamma u /\
  (0 <= rho_ u * p_p (to_prim n gamma u) -> z_last n gamma (times k u) = k * z_last n gamma u).
Proof.
  intros Hk Hr. unfold z_first, z_vel, z_last.
  assert (Er : rho_ (times k u) = k * rho_ u) by reflexivity.
  assert (Ep : p_p (to_prim n gamma (times k u)) = k * p_p (to_prim n gamma u)).
  { unfold to_prim. cbn [p_p times rho_ mom en mkcons fst snd]. rewrite dot_scal. field. lra. }
  assert (Eu : p_u (to_prim n gamma (times k u)) = p_u (to_prim n gamma u)).
  { unfold to_prim. cbn [p_u times rho_ mom en mkcons fst snd]. apply comp_ext; intros i. rewrite !comp_scal. field. lra. }
  rewrite Er, Ep, Eu. replace (k * rho_ u / (k * p_p (to_prim n gamma u))) with (rho_ u / p_p (to_prim n gamma u)).
  - split; [reflexivity|]. split; [reflexivity|]. intros H.
    replace (k * rho_ u * (k * p_p (to_prim n gamma u))) with (k * k * (rho_ u * p_p (to_prim n gamma u))) by ring.
    rewrite sqrt_mult; [|apply Rlt_le, Rmult_lt_0_compat; assumption|exact H]. rewrite sqrt_square by lra. reflexivity.
  - unfold Rdiv. rewrite Rinv_mult. match goal with |- _ = ?a * ?b * (/ ?a * ?c) => transitivity (a * / a * (b * c)) end; [|ring].
    rewrite Rinv_r by lra. ring.
Qed.
Lemma div_logmean_k k l r F : div_logmean l r (k * F) = k * div_logmean l r F.
Proof. unfold div_logmean. destruct (Req_EM_T _ _); [ring|]. unfold Rdiv. ring. Qed.
Lemma tecno_energy_k gamma k zl zr F s : tecno_energy gamma zl zr (k * F) (k * s) = k * tecno_energy gamma zl zr F s.
Proof. unfold tecno_energy. rewrite div_logmean_k. ring. Qed.
Lemma times_tecno n gamma k d (l r : cons n) : (1 <= n <= 3)%nat -> 0 < k -> 0 < rho_ l -> 0 < rho_ r ->
  0 < p_p (to_prim n gamma l) -> 0 < p_p (to_prim n gamma r) ->
  tecno_form gamma n d (times k l) (times k r) = times k (tecno_form gamma n d l r).
Proof.
  intros Hn Hk Hl Hr Pl Pr.
  destruct (z_times n gamma k l Hk ltac:(lra)) as (L1 & L2 & L3). specialize (L3 ltac:(apply Rlt_le, Rmult_lt_0_compat; assumption)).
  destruct (z_times n gamma k r Hk ltac:(lra)) as (R1 & R2 & R3). specialize (R3 ltac:(apply Rlt_le, Rmult_lt_0_compat; assumption)).
  assert (Zl : 0 < z_last n gamma l) by (apply sqrt_lt_R0, Rmult_lt_0_compat; assumption).
  assert (Zr : 0 < z_last n gamma r) by (apply sqrt_lt_R0, Rmult_lt_0_compat; assumption).
  pose proof (logmean_k k _ _ Hk Zl Zr) as Lm.
  assert (Bk : forall x y, bar (k * x) (k * y) = k * bar x y) by (intros; unfold bar; field).
  destruct n as [|[|[|[|n]]]]; try lia; destruct d as [|[|d]]; cbn [tecno_form]; unfold tecno_form1, tecno_form2, tecno_form3;
    rewrite ?L1, ?L2, ?L3, ?R1, ?R2, ?R3, ?Lm, ?Bk; clear;
    repeat match goal with |- context [z_vel ?n ?g ?u] => generalize (z_vel n g u); intro end;
    repeat match goal with |- context [z_first ?n ?g ?u] => generalize (z_first n g u); intro end;
    repeat match goal with |- context [logmean ?u ?v] => generalize (logmean u v); intro end;
    repeat match goal with |- context [z_last ?n ?g ?u] => generalize (z_last n g u); intro end;
    vecs; cbn [fst snd]; cbv zeta;
    (apply cons_ext; cbn [rho_ mom en mkcons fst snd times vscal vec_cvars pair_cvars scalar_cvars unit_cvars];
    [ unfold Rdiv; ring
    | unfold Rdiv; repeat (apply (f_equal2 pair); [rring|]); try exact (eq_refl tt)
    | first [rewrite <- tecno_energy_k; f_equal; unfold Rdiv; ring | ring] ]).
Qed.
