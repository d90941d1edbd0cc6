(** Range and total variation along whole runs. *)
From Coq Require Import ZArith Reals List Bool Lia Lra Psatz.
From Verif Require Import M_Base M_Vec M_Boundary M_Flux M_Scalar M_Sim S_Boundary S_Flux S_Sum S_Sim S_Monotone
  L_Base L_Loops L_Boundary L_Flux L_System L_Sum L_Conserve L_FluxTop L_Sim L_SimTop L_SimProps L_Monotone L_Diffusion.
Import ListNotations.
Open Scope Z_scope.

(** [run_preserves] with the timestep and the wave speeds of every step. *)
Section Timed.
Context {V : cvars}.
Variables (it : integrator) (b : bckind) (dims g : Z) (fx : numflux V) (rc : recon V) (nx ny nz : Z).
Hypothesis Hdims : 1 <= dims <= 3.
Hypothesis Hcomp : compatible fx rc g.
Hypothesis (Hx : 0 < nx) (Hy : 0 < ny) (Hz : 0 < nz).
Hypothesis (Gx : g <= nx) (Gy : 1 < dims -> g <= ny) (Gz : 2 < dims -> g <= nz).
Hypothesis Hcells : total_cells dims g nx ny nz < 2 ^ 31.
Notation interior := (interior dims g nx ny nz).
Notation L := (semidiscrete (V := V) b dims g nx ny nz fx rc).

Theorem run_preserves_timed (P : field V -> Prop) p obeys vols sc adjs :
  (forall adj t ws dt u u', In adj adjs -> P u ->
     is_wave_speed dims g nx ny nz fx rc (filled b dims g nx ny nz u) ws ->
     dt = compute_timestep (p_wadj p) (adj t) ws (p_len p) (p_cfl p) ->
     (forall c, interior c -> u' c = textbook L it (dt / p_len p 0)%R u c) -> P u') ->
  (forall u u', P u -> (forall c, interior c -> u' c = u c) -> P u') ->
  Forall (ext dims g nx ny nz) vols -> length vols = S (substeps it) -> scratch_ext dims g nx ny nz sc ->
  P (vget (hd (ref dims g nx ny nz) vols)) ->
  (exists st, serial_run it b dims g fx rc p obeys vols sc adjs = Ok st /\ P (solution st) /\
     s_steps st = length adjs) \/
  (serial_run it b dims g fx rc p obeys vols sc adjs = Throw /\ exists u, obeys u = false).
Proof.
  intros HP HE Hv Hl Hs H0. unfold serial_run.
  destruct (start_ok it b dims g fx rc nx ny nz Hdims Hcomp Hx Hy Hz Gx Gy Gz vols sc Hv Hl Hs) as (st0 & E0 & I0 & T0 & W0).
  rewrite E0. cbn [bind].
  assert (P0 : P (solution st0)) by (eapply HE; [exact H0|exact W0]).
  assert (N0 : s_steps st0 = O).
  { unfold start in E0. destruct (vat vols 0); cbn [bind] in E0; try discriminate.
    destruct (apply_boundary _ _ _ _ _); cbn [bind] in E0; try discriminate. injection E0 as <-. reflexivity. }
  change (length adjs) with (0 + length adjs)%nat. rewrite <- N0. clear E0 W0 N0 T0.
  revert st0 I0 P0. unfold run. induction adjs as [|adj adjs IH]; intros st0 I0 P0; cbn [fold_res].
  - left. exists st0. simpl. split; [reflexivity|]. split; [exact P0|lia].
  - destruct (step_ok it b dims g fx rc nx ny nz Hdims Hcomp Hx Hy Hz Gx Gy Gz Hcells p adj st0 I0)
      as (st1 & dt & ws & E1 & I1 & S1 & D1 & _ & N1 & W1).
    assert (P1 : P (solution st1)).
    { eapply HP; [now left|exact P0|exact S1|exact D1|exact W1]. }
    unfold perform_step, checked_step. rewrite E1. cbn [bind].
    rewrite (vat_nth (s_vols st1) 0 (ref dims g nx ny nz)) by (destruct I1 as (_ & -> & _); lia). cbn [bind].
    destruct (obeys (nth 0 (s_vols st1) (ref dims g nx ny nz))) eqn:Eo; cbn [bind].
    + destruct (IH (fun a t ws dt u u' Ha => HP a t ws dt u u' (or_intror Ha)) st1 I1 P1)
        as [(st & E & Pst & N)|(E & X)].
      * left. exists st. split; [exact E|]. split; [exact Pst|]. simpl length. lia.
      * right. split; [exact E|exact X].
    + right. split; [reflexivity|]. eauto.
Qed.

Lemma one_step p u0 rest sc :
  Forall (ext dims g nx ny nz) (u0 :: rest) -> length rest = substeps it -> scratch_ext dims g nx ny nz sc ->
  exists st v ws dt,
    serial_run it b dims g fx rc p (fun _ => true) (u0 :: rest) sc [fun _ => []] = Ok st /\
    (forall c, interior c -> v c = vget u0 c) /\
    is_wave_speed dims g nx ny nz fx rc (filled b dims g nx ny nz v) ws /\
    dt = compute_timestep (p_wadj p) [] ws (p_len p) (p_cfl p) /\
    forall c, interior c -> solution st c = textbook L it (dt / p_len p 0) v c.
Proof.
  intros Hv Hl Hs. unfold serial_run.
  destruct (start_ready it b dims g fx rc nx ny nz Hdims Hcomp Hx Hy Hz Gx Gy Gz (u0 :: rest) sc Hv)
    as (st0 & E0 & R0 & _ & W0); [simpl; now rewrite Hl|exact Hs|]. rewrite E0. cbn [bind].
  destruct (step_ready it b dims g fx rc nx ny nz Hdims Hcomp Hx Hy Hz Gx Gy Gz Hcells p (fun _ => []) st0 R0)
    as (st1 & dt & ws & E1 & R1 & S1 & D1 & _ & _ & W1).
  unfold run. cbn [fold_res]. unfold perform_step, checked_step. rewrite E1. cbn [bind].
  destruct R1 as (_ & L1 & _).
  destruct (s_vols st1) as [|u1 l1] eqn:Ev; [discriminate|]. cbn [vat nth_error bind].
  exists st1, (solution st0), ws, dt. auto.
Qed.
End Timed.

(** Harten's lemma on a range of faces. *)
Lemma harten_sum lo hi (a a' A B : Z -> R) : (lo <= hi) ->
  (forall k, (lo <= k < hi)%Z -> a' k <= (1 - A k - B k) * a k + A (k - 1)%Z * a (k - 1)%Z + B (k + 1)%Z * a (k + 1)%Z)%R ->
  (sumz lo hi a' <= sumz lo hi a + (A (lo - 1)%Z * a (lo - 1)%Z - A (hi - 1)%Z * a (hi - 1)%Z)
                   + (B hi * a hi - B lo * a lo))%R.
Proof.
  intros Hl H. eapply Rle_trans; [apply sumz_le, H|].
  rewrite (sumz_ext lo hi _ (fun k => (a k + (A (k - 1)%Z * a (k - 1)%Z - A k * a k))
     - (B (k - 1 + 1)%Z * a (k - 1 + 1)%Z - B (k + 1)%Z * a (k + 1)%Z))%R).
  - rewrite sumz_minus, sumz_plus.
    rewrite (sumz_telescope lo hi (fun k => A k * a k)%R Hl).
    rewrite (sumz_telescope lo hi (fun k => B (k + 1)%Z * a (k + 1)%Z)%R Hl).
    replace (lo - 1 + 1) with lo by ring. replace (hi - 1 + 1) with hi by ring. lra.
  - intros k Hk. replace (k - 1 + 1) with k by ring. ring.
Qed.

Section M.
Variables (b : bckind) (dims g nx ny nz : Z) (F : R -> R -> R) (w : R -> R) (kap : R) (C D : R -> R -> R).
Variable sp : R -> R -> R.
Hypothesis Hdims : 1 <= dims <= 3.
Hypothesis Hg : 1 <= g.
Hypothesis (Hx : 0 < nx) (Hy : 0 < ny) (Hz : 0 < nz).
Hypothesis (Gx : g <= nx) (Gy : 1 < dims -> g <= ny) (Gz : 2 < dims -> g <= nz).
Hypothesis HF : incremental F w kap C D.
Hypothesis Hkap : (1 <= kap)%R.

Let fx : numflux scalar_cvars := Flux2 (V := scalar_cvars) (fun (d : Z) (l r : scalar_cvars) => (F l r : scalar_cvars, sp l r)).
Notation rc := (no_reconstruction (V := scalar_cvars)).
Notation interior := (interior dims g nx ny nz).
Notation im := (image (bc_image b) dims g nx ny nz).
Notation fill := (filled (V := scalar_cvars) b dims g nx ny nz).
Notation L := (semidiscrete (V := scalar_cvars) b dims g nx ny nz fx rc).

Lemma fx_comp : compatible fx rc g.
Proof. split; [simpl; lia|exact I]. Qed.

Lemma rec_none' (u : cell -> R) d c : rec_at rc d u c = (u c, u c).
Proof.
  unfold rec_at, no_reconstruction. cbn [rec_fun rec_ghosts]. change (zrange (- (1 - 1)) 1) with [0].
  cbn [map]. unfold move. destruct c as [[x y] z].
  destruct (d =? 0); [|destruct (d =? 1)]; rewrite Z.add_0_r; reflexivity.
Qed.

(** One direction of the right hand side. *)
Definition incr (u : cell -> R) (d : Z) (c : cell) : R :=
  (C (fill u (move d (-1) c)) (fill u c) * (fill u (move d (-1) c) - fill u c) +
   D (fill u c) (fill u (move d 1 c)) * (fill u (move d 1 c) - fill u c))%R.

Lemma L_incr u c : L u c = fold_left Rplus (map (fun d => incr u d c) (zrange 0 dims)) 0%R.
Proof.
  unfold semidiscrete, rhs.
  assert (E : forall d, (fst (iface fx rc d (fill u) (move d (-1) c)) + -1 * fst (iface fx rc d (fill u) c) = incr u d c)%R).
  { intros d. unfold iface, fx. rewrite !rec_none'. cbn [fst snd].
    destruct HF as (H & _). unfold incr. rewrite <- H.
    assert (M0 : move d 1 (move d (-1) c) = c).
    { destruct c as [[x y] z]. unfold move. destruct (d =? 0); [|destruct (d =? 1)]; repeat apply (f_equal2 (@pair _ _)); lia. }
    rewrite M0. ring. }
  change (@vzero scalar_cvars) with 0%R. generalize 0%R.
  induction (zrange 0 dims) as [|d ds IH]; intros a; cbn [fold_left map]; [reflexivity|].
  rewrite <- (E d). apply IH.
Qed.

Lemma fill_interior u c : interior c -> fill u c = u c.
Proof. intros Hc. unfold filled. f_equal. now apply im_id. Qed.
Lemma near_interior d s c : 0 <= d < dims -> interior c -> -1 <= s <= 1 -> interior (im (move d s c)).
Proof.
  intros Hd Hc Hs. apply (im_interior (V := scalar_cvars) b dims g fx rc nx ny nz); auto using fx_comp.
  apply (stencil_in_volume (V := scalar_cvars) dims g fx rc nx ny nz); auto using fx_comp. lia.
Qed.

Section Stage.
Variables (u : cell -> R) (h B : R).
Hypothesis Hh : (0 <= h)%R.
Hypothesis HB : forall c, interior c -> (w (u c) <= B)%R.
Hypothesis HB0 : (0 <= B)%R.
Hypothesis Hstep : (h * (kap * (IZR dims * B)) <= 1)%R.

Lemma incr_le M d c : 0 <= d < dims -> interior c -> (forall c, interior c -> u c <= M)%R ->
  (incr u d c <= kap * B * (M - u c))%R.
Proof.
  intros Hd Hc HM. unfold incr. rewrite (fill_interior u c Hc).
  destruct HF as (_ & _ & _ & _ & HK & _).
  pose proof (near_interior d (-1) c Hd Hc ltac:(lia)) as N1.
  pose proof (near_interior d 1 c Hd Hc ltac:(lia)) as N2.
  unfold filled. set (l := u (im (move d (-1) c))). set (r := u (im (move d 1 c))).
  pose proof (HM _ N1) as Ml. pose proof (HM _ N2) as Mr. fold l in Ml. fold r in Mr.
  apply (HK l (u c) r B _ (HB _ N1) (HB _ Hc) (HB _ N2) Ml (HM _ Hc) Mr).
Qed.
Lemma incr_ge m d c : 0 <= d < dims -> interior c -> (forall c, interior c -> m <= u c)%R ->
  (kap * B * (m - u c) <= incr u d c)%R.
Proof.
  intros Hd Hc HM. unfold incr. rewrite (fill_interior u c Hc).
  destruct HF as (_ & _ & _ & _ & _ & HK).
  pose proof (near_interior d (-1) c Hd Hc ltac:(lia)) as N1.
  pose proof (near_interior d 1 c Hd Hc ltac:(lia)) as N2.
  unfold filled. set (l := u (im (move d (-1) c))). set (r := u (im (move d 1 c))).
  pose proof (HM _ N1) as Ml. pose proof (HM _ N2) as Mr. fold l in Ml. fold r in Mr.
  apply (HK l (u c) r B _ (HB _ N1) (HB _ Hc) (HB _ N2) Ml (HM _ Hc) Mr).
Qed.

Lemma dims_cases : dims = 1 \/ dims = 2 \/ dims = 3.
Proof. lia. Qed.

Lemma stage_range m M : in_range dims g nx ny nz m M u ->
  in_range dims g nx ny nz m M (euler L h u).
Proof.
  intros Hr c Hc. unfold euler, fplus, fmul. cbn [vadd vscal scalar_cvars].
  change (m <= u c + h * L u c <= M)%R. rewrite L_incr.
  assert (Up : forall d, 0 <= d < dims -> (incr u d c <= kap * B * (M - u c))%R)
    by (intros; apply incr_le; auto; intros; now apply Hr).
  assert (Lo : forall d, 0 <= d < dims -> (kap * B * (m - u c) <= incr u d c)%R)
    by (intros; apply incr_ge; auto; intros; now apply Hr).
  destruct (Hr c Hc) as [R1 R2].
  assert (S : (IZR dims * (kap * B * (m - u c)) <= fold_left Rplus (map (fun d => incr u d c) (zrange 0 dims)) 0
               <= IZR dims * (kap * B * (M - u c)))%R).
  { clear Hstep. destruct dims_cases as [E|[E|E]]; rewrite E in Up, Lo |- *.
    - change (zrange 0 1) with [0]. cbn [map fold_left].
      pose proof (Up 0 ltac:(lia)). pose proof (Lo 0 ltac:(lia)). lra.
    - change (zrange 0 2) with [0; 1]. cbn [map fold_left].
      pose proof (Up 0 ltac:(lia)). pose proof (Lo 0 ltac:(lia)).
      pose proof (Up 1 ltac:(lia)). pose proof (Lo 1 ltac:(lia)). lra.
    - change (zrange 0 3) with [0; 1; 2]. cbn [map fold_left].
      pose proof (Up 0 ltac:(lia)). pose proof (Lo 0 ltac:(lia)).
      pose proof (Up 1 ltac:(lia)). pose proof (Lo 1 ltac:(lia)).
      pose proof (Up 2 ltac:(lia)). pose proof (Lo 2 ltac:(lia)). lra. }
  set (s := fold_left Rplus _ _) in *. clearbody s.
  set (K := (kap * (IZR dims * B))%R) in *.
  replace (IZR dims * (kap * B * (m - u c)))%R with (K * (m - u c))%R in S by (unfold K; ring).
  replace (IZR dims * (kap * B * (M - u c)))%R with (K * (M - u c))%R in S by (unfold K; ring).
  destruct S as [S1 S2].
  assert (T1 : (h * (K * (m - u c)) <= h * s)%R) by (apply Rmult_le_compat_l; lra).
  assert (T2 : (h * s <= h * (K * (M - u c)))%R) by (apply Rmult_le_compat_l; lra).
  clearbody K. split; nra.
Qed.

(** One row in one dimension. *)
Hypothesis D1 : dims = 1.

Lemma row_move x y z s : move 0 s (x, y, z) = (x + s, y, z).
Proof. reflexivity. Qed.

Lemma row_step u' y z k : 0 <= y < ny -> 0 <= z < nz ->
  (forall c, interior c -> u' c = euler L h u c) ->
  match b with Periodic => True | Neumann => g <= k < g + nx end ->
  let v (x : Z) : R := fill u (x, y, z) in
  fill u' (k, y, z) = (v k + h * (C (v (k - 1)%Z) (v k) * (v (k - 1)%Z - v k) + D (v k) (v (k + 1)%Z) * (v (k + 1)%Z - v k)))%R.
Proof.
  intros Iy Iz Hu Hk v.
  assert (Ik : interior (im (k, y, z))).
  { rewrite D1. unfold S_Boundary.interior, image, interior1. simpl. split; [|split; assumption].
    destruct b; simpl; [apply periodic1_range; lia|]. rewrite mirror1_mid by exact Hk. exact Hk. }
  unfold filled at 1. rewrite Hu by exact Ik.
  unfold euler, fplus, fmul. cbn [vadd vscal scalar_cvars].
  change (u (im (k, y, z)) + h * L u (im (k, y, z)) =
    v k + h * (C (v (k - 1)%Z) (v k) * (v (k - 1)%Z - v k) + D (v k) (v (k + 1)%Z) * (v (k + 1)%Z - v k)))%R.
  rewrite L_incr. rewrite D1 at 2. change (zrange 0 1) with [0]. cbn [map fold_left].
  assert (E : forall s, -1 <= s <= 1 -> fill u (move 0 s (im (k, y, z))) = v (k + s)).
  { intros s Hs. unfold v, filled. f_equal. rewrite D1. cbn [image]. change (1 <? 1) with false. change (2 <? 1) with false.
    cbv iota. rewrite row_move. cbn [image]. change (1 <? 1) with false. change (2 <? 1) with false. cbv iota.
    repeat apply (f_equal2 (@pair _ _)); try reflexivity. clear Ik.
    destruct b; simpl.
    - unfold periodic1. f_equal. replace (g + (k - g) mod nx + s - g) with ((k - g) mod nx + s) by ring.
      rewrite Zplus_mod_idemp_l. f_equal. ring.
    - rewrite (mirror1_mid g nx k) by exact Hk. reflexivity. }
  unfold incr. rewrite !E by lia.
  assert (E0 : fill u (im (k, y, z)) = v k).
  { rewrite fill_interior by exact Ik. reflexivity. }
  rewrite E0. change (k + -1) with (k - 1). 
  change (u (im (k, y, z))) with (v k). change (@eq R (v k + h * (0 + (C (v (k - 1)%Z) (v k) * (v (k - 1)%Z - v k) + D (v k) (v (k + 1)%Z) * (v (k + 1)%Z - v k))))%R
    (v k + h * (C (v (k - 1)%Z) (v k) * (v (k - 1)%Z - v k) + D (v k) (v (k + 1)%Z) * (v (k + 1)%Z - v k)))%R).
  generalize (v k) (v (k + 1)) (v (k - 1)). clear. intros v1 v2 v3. ring.
Qed.

Lemma row_bound y z k : 0 <= y < ny -> 0 <= z < nz ->
  match b with Periodic => True | Neumann => g - 1 <= k <= g + nx end -> (w (fill u (k, y, z)) <= B)%R.
Proof.
  intros Iy Iz Hk. unfold filled. apply HB. rewrite D1. unfold S_Boundary.interior, image, interior1. simpl.
  split; [|split; assumption]. destruct b; simpl; [apply periodic1_range; lia|].
  unfold mirror1. destruct (Z.ltb_spec k g); [lia|]. destruct (Z.leb_spec (g + nx) k); lia.
Qed.

Lemma hB : (h * B <= 1)%R.
Proof.
  eapply Rle_trans; [|exact Hstep]. apply Rmult_le_compat_l; [exact Hh|]. rewrite D1. nra.
Qed.

Lemma row_variation u' y z : 0 <= y < ny -> 0 <= z < nz ->
  (forall c, interior c -> u' c = euler L h u c) ->
  (sumz g (g + nx) (fun x => Rabs (fill u' ((x + 1)%Z, y, z) - fill u' (x, y, z))) <=
   sumz g (g + nx) (fun x => Rabs (fill u ((x + 1)%Z, y, z) - fill u (x, y, z))))%R.
Proof.
  intros Iy Iz Hu. set (v := fun x => (fill u (x, y, z) : R)). set (v' := fun x => (fill u' (x, y, z) : R)).
  change (sumz g (g + nx) (fun x => Rabs (v' (x + 1)%Z - v' x)) <= sumz g (g + nx) (fun x => Rabs (v (x + 1)%Z - v x)))%R.
  pose (A := fun k => (h * C (v k) (v (k + 1)%Z))%R). pose (Bf := fun k => (h * D (v k) (v (k + 1)%Z))%R).
  pose (a := fun k => Rabs (v (k + 1)%Z - v k)).
  destruct HF as (_ & HC & HD & HS & _).
  assert (A0 : forall k, (0 <= A k)%R) by (intros; apply Rmult_le_pos; auto).
  assert (B0 : forall k, (0 <= Bf k)%R) by (intros; apply Rmult_le_pos; auto).
  assert (a0 : forall k, (0 <= a k)%R) by (intros; apply Rabs_pos).
  assert (AB : forall k, match b with Periodic => True | Neumann => g <= k < g + nx - 1 end -> (A k + Bf k <= 1)%R).
  { intros k Hk. unfold A, Bf. rewrite <- Rmult_plus_distr_l. eapply Rle_trans; [|apply hB].
    apply Rmult_le_compat_l; [exact Hh|]. apply HS; apply row_bound; auto; destruct b; lia. }
  assert (Hstp : forall k, match b with Periodic => True | Neumann => g <= k < g + nx - 1 end ->
    (Rabs (v' (k + 1)%Z - v' k) <= (1 - A k - Bf k) * a k + A (k - 1)%Z * a (k - 1)%Z + Bf (k + 1)%Z * a (k + 1)%Z)%R).
  { intros k Hk.
    assert (E1 : v' k = (v k + h * (C (v (k - 1)%Z) (v k) * (v (k - 1)%Z - v k) + D (v k) (v (k + 1)%Z) * (v (k + 1)%Z - v k)))%R).
    { apply row_step; auto. destruct b; lia. }
    assert (E2 : v' (k + 1) = (v (k + 1)%Z + h * (C (v k) (v (k + 1)%Z) * (v k - v (k + 1)%Z)
                  + D (v (k + 1)%Z) (v (k + 1 + 1)%Z) * (v (k + 1 + 1)%Z - v (k + 1)%Z)))%R).
    { pose proof (row_step u' y z (k + 1) Iy Iz Hu ltac:(destruct b; lia)) as E. cbv zeta in E.
      replace (k + 1 - 1) with k in E by ring. exact E. }
    assert (E : (v' (k + 1)%Z - v' k = (1 - A k - Bf k) * (v (k + 1)%Z - v k)
       + A (k - 1)%Z * (v (k - 1 + 1)%Z - v (k - 1)%Z) + Bf (k + 1)%Z * (v (k + 1 + 1)%Z - v (k + 1)%Z))%R).
    { rewrite E1, E2. unfold A, Bf. replace (k - 1 + 1) with k by ring. ring. }
    rewrite E. eapply Rle_trans; [apply Rabs_triang|]. apply Rplus_le_compat; [eapply Rle_trans; [apply Rabs_triang|]; apply Rplus_le_compat|].
    - rewrite Rabs_mult. rewrite Rabs_pos_eq; [unfold a; lra|]. specialize (AB k Hk). lra.
    - rewrite Rabs_mult. rewrite Rabs_pos_eq by apply A0. unfold a. lra.
    - rewrite Rabs_mult. rewrite Rabs_pos_eq by apply B0. unfold a. lra. }
  fold a. destruct b eqn:Eb.
  - pose proof (harten_sum g (g + nx) a (fun k => Rabs (v' (k + 1)%Z - v' k)) A Bf ltac:(lia)
      (fun k _ => Hstp k Logic.I)) as Q.
    assert (Vp : forall k, v (k + nx) = v k).
    { intros k. unfold v, filled. f_equal. rewrite D1. unfold image. simpl.
      repeat apply (f_equal2 (@pair _ _)); try reflexivity. unfold periodic1.
      f_equal. replace (k + nx - g) with (k - g + 1 * nx) by ring. apply Z_mod_plus_full. }
    assert (V1 : v (g + nx - 1) = v (g - 1)) by (rewrite <- (Vp (g - 1)); f_equal; ring).
    assert (V2 : v (g + nx - 1 + 1) = v (g - 1 + 1)) by (rewrite <- (Vp (g - 1 + 1)); f_equal; ring).
    assert (V3 : v (g + nx) = v g) by apply Vp.
    assert (V4 : v (g + nx + 1) = v (g + 1)) by (rewrite <- (Vp (g + 1)); f_equal; ring).
    assert (S1 : (A (g - 1)%Z * a (g - 1)%Z = A (g + nx - 1)%Z * a (g + nx - 1)%Z)%R)
      by (unfold A, a; rewrite V1, V2; reflexivity).
    assert (S2 : (Bf (g + nx)%Z * a (g + nx)%Z = Bf g * a g)%R) by (unfold Bf, a; rewrite V3, V4; reflexivity).
    change (sumz g (g + nx) (fun x => a x)) with (sumz g (g + nx) a). lra.
  - replace (g + nx) with (g + nx - 1 + 1) by ring. rewrite !sumz_snoc by lia.
    assert (Vr : forall q : cell -> R, (filled (V := scalar_cvars) Neumann dims g nx ny nz q ((g + nx - 1 + 1)%Z, y, z)
                  = filled (V := scalar_cvars) Neumann dims g nx ny nz q ((g + nx - 1)%Z, y, z))).
    { intros q. unfold filled. f_equal. rewrite D1. unfold image. simpl.
      repeat apply (f_equal2 (@pair _ _)); try reflexivity. unfold mirror1.
      replace (g + nx - 1 + 1) with (g + nx) by ring.
      destruct (Z.ltb_spec (g + nx) g); [lia|]. destruct (Z.ltb_spec (g + nx - 1) g); [lia|].
      destruct (Z.leb_spec (g + nx) (g + nx)); [|lia]. destruct (Z.leb_spec (g + nx) (g + nx - 1)); lia. }
    assert (L0 : a (g - 1) = 0%R).
    { unfold a. replace (v (g - 1 + 1)) with (v (g - 1)); [rewrite Rminus_diag_eq, Rabs_R0; reflexivity|].
      unfold v, filled. f_equal. rewrite D1. unfold image. simpl.
      repeat apply (f_equal2 (@pair _ _)); try reflexivity. unfold mirror1.
      destruct (Z.ltb_spec (g - 1) g); [|lia]. destruct (Z.ltb_spec (g - 1 + 1) g); [lia|].
      destruct (Z.leb_spec (g + nx) (g - 1 + 1)); lia. }
    assert (R0 : a (g + nx - 1) = 0%R).
    { unfold a. replace (v (g + nx - 1 + 1)) with (v (g + nx - 1)); [rewrite Rminus_diag_eq, Rabs_R0; reflexivity|].
      symmetry. apply Vr. }
    assert (R1 : Rabs (v' (g + nx - 1 + 1)%Z - v' (g + nx - 1)%Z) = 0%R).
    { replace (v' (g + nx - 1 + 1)) with (v' (g + nx - 1)); [rewrite Rminus_diag_eq, Rabs_R0; reflexivity|].
      symmetry. apply Vr. }
    rewrite R1, R0.
    pose proof (harten_sum g (g + nx - 1) a (fun k => Rabs (v' (k + 1)%Z - v' k)) A Bf ltac:(lia)
      (fun k Hk => Hstp k Hk)) as Q.
    rewrite L0, R0 in Q.
    assert (0 <= A (g + nx - 1 - 1)%Z * a (g + nx - 1 - 1)%Z)%R by (apply Rmult_le_pos; auto).
    assert (0 <= Bf g * a g)%R by (apply Rmult_le_pos; auto).
    change (sumz g (g + nx - 1) (fun x => a x)) with (sumz g (g + nx - 1) a). lra.
Qed.

Lemma stage_variation u' : (forall c, interior c -> u' c = euler L h u c) ->
  (variation b dims g nx ny nz u' <= variation b dims g nx ny nz u)%R.
Proof.
  intros Hu. unfold variation, isum, sum3.
  assert (I2 : ilo dims g 2 = 0 /\ ihi dims g (nvec nx ny nz) 2 = nz) by (rewrite D1; split; reflexivity).
  assert (I1 : ilo dims g 1 = 0 /\ ihi dims g (nvec nx ny nz) 1 = ny) by (rewrite D1; split; reflexivity).
  assert (I0 : ilo dims g 0 = g /\ ihi dims g (nvec nx ny nz) 0 = g + nx) by (rewrite D1; split; reflexivity).
  destruct I0 as [-> ->], I1 as [-> ->], I2 as [-> ->].
  apply sumz_le. intros z Iz. apply sumz_le. intros y Iy. cbn [move Z.eqb]. now apply row_variation.
Qed.
End Stage.

Lemma variation_convex (u a c : cell -> R) (al be : R) : (0 <= al)%R -> (0 <= be)%R ->
  (forall x, interior x -> u x = al * a x + be * c x)%R ->
  (variation b dims g nx ny nz u <= al * variation b dims g nx ny nz a + be * variation b dims g nx ny nz c)%R.
Proof.
  intros Ha Hb Hu. unfold variation. unfold isum. rewrite <- (sum3_scal _ _ al), <- (sum3_scal _ _ be), <- sum3_plus.
  apply (isum_le dims g nx ny nz Hdims). intros x Hi.
  assert (E : forall y, interior (im y) -> (fill u y = al * fill a y + be * fill c y)%R)
    by (intros y H; unfold filled; now apply Hu).
  pose proof (near_interior 0 1 x ltac:(lia) Hi ltac:(lia)) as N1.
  assert (N0 : interior (im x)) by (rewrite im_id by exact Hi; exact Hi).
  rewrite (E _ N1), (E _ N0).
  replace (al * fill a (move 0 1 x) + be * fill c (move 0 1 x) - (al * fill a x + be * fill c x))%R
    with (al * (fill a (move 0 1 x) - fill a x) + be * (fill c (move 0 1 x) - fill c x))%R by ring.
  eapply Rle_trans; [apply Rabs_triang|]. rewrite !Rabs_mult, (Rabs_pos_eq al), (Rabs_pos_eq be) by assumption. lra.
Qed.

Lemma extrema (u : cell -> R) : exists c1 c2, interior c1 /\ interior c2 /\
  forall c, interior c -> (u c1 <= u c <= u c2)%R.
Proof.
  pose (cells := flat_map (fun z => flat_map (fun y => map (fun x => (x, y, z))
    (zrange (ilo dims g 0) (ihi dims g (nvec nx ny nz) 0))) (zrange (ilo dims g 1) (ihi dims g (nvec nx ny nz) 1)))
    (zrange (ilo dims g 2) (ihi dims g (nvec nx ny nz) 2))).
  assert (I : forall c, In c cells <-> interior c).
  { intros [[x y] z]. unfold cells. rewrite in_flat_map. rewrite interior_iff by lia. split.
    - intros (z' & Hz' & H). apply in_flat_map in H as (y' & Hy' & H). apply in_map_iff in H as (x' & E & Hx').
      injection E as -> -> ->. intros k Hk. apply zrange_In in Hx', Hy', Hz'. dcase Hk; assumption.
    - intros H. exists z. split; [apply zrange_In; apply (H 2); unfold dir; auto|].
      apply in_flat_map. exists y. split; [apply zrange_In; apply (H 1); unfold dir; auto|].
      apply in_map_iff. exists x. split; [reflexivity|]. apply zrange_In; apply (H 0); unfold dir; auto. }
  assert (N : exists c, In c cells).
  { exists (ilo dims g 0, ilo dims g 1, ilo dims g 2). apply I. apply interior_iff; [lia|].
    intros k Hk. assert (0 < nvec nx ny nz k) by (unfold nvec; dcase Hk; simpl; lia).
    replace (coord k _) with (ilo dims g k) by (dcase Hk; reflexivity).
    unfold ilo, ihi. destruct (k <? dims); lia. }
  assert (G : exists c1 c2, In c1 cells /\ In c2 cells /\ forall c, In c cells -> (u c1 <= u c <= u c2)%R).
  { clear I. induction cells as [|x l IH]; [destruct N as [? []]|].
    destruct l as [|x' l'].
    - exists x, x. split; [now left|]. split; [now left|]. intros c [<-|[]]. lra.
    - destruct IH as (c1 & c2 & H1 & H2 & H); [exists x'; now left|].
      exists (if Rle_dec (u x) (u c1) then x else c1), (if Rle_dec (u c2) (u x) then x else c2).
      split; [destruct (Rle_dec _ _); [now left|now right]|].
      split; [destruct (Rle_dec (u c2) _); [now left|now right]|].
      intros c [<-|Hc].
      + destruct (Rle_dec (u x) (u c1)), (Rle_dec (u c2) (u x)); lra.
      + specialize (H c Hc). destruct (Rle_dec (u x) (u c1)), (Rle_dec (u c2) (u x)); lra. }
  destruct G as (c1 & c2 & H1 & H2 & H). exists c1, c2. rewrite <- !I. split; [exact H1|]. split; [exact H2|].
  intros c Hc. apply H. now apply I.
Qed.

Hypothesis Hw0 : forall x, (0 <= w x)%R.
Hypothesis Hw : forall p q x, (p <= x <= q)%R -> (w x <= Rmax (w p) (w q))%R.

Lemma textbook_bound it h u u' m M W : strong_stability it ->
  (0 <= h)%R -> (forall c, interior c -> w (u c) <= W)%R ->
  (h * (kap * (IZR dims * W)) <= 1)%R ->
  (forall c, interior c -> u' c = textbook L it h u c) ->
  in_range dims g nx ny nz m M u ->
  in_range dims g nx ny nz m M u' /\
  (dims = 1%Z -> variation b dims g nx ny nz u' <= variation b dims g nx ny nz u)%R.
Proof.
  intros Hit Hh HW Hs Hu Hr.
  destruct (extrema u) as (c1 & c2 & I1 & I2 & X). set (m0 := u c1) in *. set (M0 := u c2) in *.
  assert (W0 : (0 <= W)%R) by (eapply Rle_trans; [apply (Hw0 (u c1))|now apply HW]).
  assert (In0 : forall q, in_range dims g nx ny nz m0 M0 q -> forall c, interior c -> (w (q c) <= W)%R).
  { intros q Hq c Hc. eapply Rle_trans; [apply (Hw m0 M0); now apply Hq|]. apply Rmax_lub; now apply HW. }
  assert (St : forall q, in_range dims g nx ny nz m0 M0 q -> in_range dims g nx ny nz m0 M0 (euler L h q) /\
     (dims = 1%Z -> variation b dims g nx ny nz (euler L h q) <= variation b dims g nx ny nz q)%R).
  { intros q Hq. split.
    - apply (stage_range q h W Hh (In0 q Hq) Hs m0 M0 Hq).
    - intros D1. apply (stage_variation q h W Hh (In0 q Hq) W0 Hs D1). reflexivity. }
  assert (U0 : in_range dims g nx ny nz m0 M0 u) by exact X.
  assert (Fin : in_range dims g nx ny nz m0 M0 u' -> in_range dims g nx ny nz m M u').
  { intros H c Hc. specialize (H c Hc). pose proof (Hr c1 I1). pose proof (Hr c2 I2). unfold m0, M0 in H. lra. }
  destruct (St u U0) as [R1 V1]. 
  destruct it; cbn [textbook] in Hu; [| | |destruct Hit].
  - split; [apply Fin; intros c Hc; rewrite Hu by exact Hc; now apply R1|].
    intros D1. apply (stage_variation u h W Hh HW W0 Hs D1). exact Hu.
  - destruct (St _ R1) as [R2 V2].
    assert (E : forall c, interior c -> (u' c = 1 / 2 * u c + 1 / 2 * euler L h (euler L h u) c)%R).
    { intros c Hc. rewrite Hu by exact Hc. unfold heun, euler, fplus, fmul. cbn [vadd vscal scalar_cvars].
      match goal with |- @eq _ ?a ?b => change (@eq R a b) end. field. }
    split.
    + apply Fin. intros c Hc. rewrite E by exact Hc. specialize (R2 c Hc). specialize (U0 c Hc). cbn beta in *. lra.
    + intros D1. specialize (V1 D1). specialize (V2 D1).
      eapply Rle_trans; [apply (variation_convex u' u (euler L h (euler L h u)) (1 / 2) (1 / 2)); [lra|lra|exact E]|]. lra.
  - destruct (St _ R1) as [R2 V2].
    pose (q := (fun c => 3 / 4 * u c + 1 / 4 * euler L h (euler L h u) c)%R : cell -> R).
    assert (Q : in_range dims g nx ny nz m0 M0 q).
    { intros c Hc. unfold q. specialize (R2 c Hc). specialize (U0 c Hc). cbn beta in *. lra. }
    destruct (St q Q) as [R3 V3].
    assert (E : forall c, interior c -> (u' c = 1 / 3 * u c + 2 / 3 * euler L h q c)%R).
    { intros c Hc. rewrite Hu by exact Hc. reflexivity. }
    split.
    + apply Fin. intros c Hc. rewrite E by exact Hc. specialize (R3 c Hc). specialize (U0 c Hc). cbn beta in *. lra.
    + intros D1. specialize (V1 D1). specialize (V2 D1). specialize (V3 D1).
      assert (Vq : (variation b dims g nx ny nz q <= 3 / 4 * variation b dims g nx ny nz u
        + 1 / 4 * variation b dims g nx ny nz (euler L h (euler L h u)))%R)
        by (apply variation_convex; [lra|lra|reflexivity]).
      eapply Rle_trans; [apply (variation_convex u' u (euler L h q) (1 / 3) (2 / 3)); [lra|lra|exact E]|]. lra.
Qed.

Lemma variation_ext u u' : (forall c, interior c -> u' c = u c) ->
  variation b dims g nx ny nz u' = variation b dims g nx ny nz u.
Proof.
  intros H. assert (G : forall q q' : cell -> R, (forall c, interior c -> q' c = q c) ->
    (variation b dims g nx ny nz q' <= variation b dims g nx ny nz q)%R).
  { intros q q' Hq. pose proof (variation_convex q' q q 1 0 ltac:(lra) ltac:(lra)) as X.
    assert (variation b dims g nx ny nz q' <= 1 * variation b dims g nx ny nz q + 0 * variation b dims g nx ny nz q)%R; [|lra].
    apply X. intros c Hc. rewrite Hq by exact Hc. ring. }
  apply Rle_antisym; apply G; auto. intros. symmetry. auto.
Qed.

Hypothesis Hsp : forall l r, sp l r = Rmax (w l) (w r).
Lemma speed_bound u ws d c : is_wave_speed dims g nx ny nz fx rc (fill u) ws -> 0 <= d < dims -> interior c ->
  (w (u c) <= ws d)%R.
Proof.
  intros Hws Hd Hc. destruct (Hws d Hd) as (_ & H & _). specialize (H c (or_introl Hc)).
  unfold iface, fx in H. rewrite !rec_none' in H. cbn [fst snd] in H. rewrite Hsp in H.
  eapply Rle_trans; [|exact H]. rewrite (fill_interior u c Hc). apply Rmax_l.
Qed.

Lemma timestep_bound cfl len ws adj W :
  (0 < cfl)%R -> (cfl * kap <= 1)%R -> square_cells dims len -> Forall shortening adj ->
  (0 <= W)%R -> (forall d, 0 <= d < dims -> (W <= ws d)%R) ->
  let dt := compute_timestep [] adj ws len cfl in
  (0 <= dt / len 0%Z /\ dt / len 0%Z * (kap * (IZR dims * W)) <= 1)%R.
Proof.
  intros Hc Hk [L0 Ls] Ha W0 HW dt.
  assert (I0 : (0 < / len 0%Z)%R) by (apply Rinv_0_lt_compat; exact L0).
  assert (T : (IZR dims * W * / len 0%Z <= wave_total [] ws len)%R).
  { rewrite wave_total_eq. change (zrange 0 3) with [0; 1; 2]. cbn [map fold_right fold_left].
    pose proof (Ls 1 ltac:(lia)) as L1. pose proof (Ls 2 ltac:(lia)) as L2.
    destruct (Req_EM_T (len 0) 0); [lra|]. unfold Rdiv.
    assert (P : forall d, 0 <= d < dims -> (W * / len 0%Z <= ws d * / len 0%Z)%R)
      by (intros; apply Rmult_le_compat_r; [lra|auto]).
    destruct dims_cases as [E|[E|E]]; rewrite E in L1, L2, P |- *; cbn in L1, L2; rewrite ?L1, ?L2.
    - pose proof (P 0 ltac:(lia)). destruct (Req_EM_T 0 0); lra.
    - pose proof (P 0 ltac:(lia)). pose proof (P 1 ltac:(lia)).
      destruct (Req_EM_T 0 0); [|lra]. destruct (Req_EM_T (len 0) 0); lra.
    - pose proof (P 0 ltac:(lia)). pose proof (P 1 ltac:(lia)). pose proof (P 2 ltac:(lia)).
      destruct (Req_EM_T (len 0) 0); lra. }
  assert (FA : forall x, (0 <= x)%R -> (0 <= fold_left (fun dt f => f dt) adj x <= x)%R).
  { clear dt. induction adj as [|f adj IH]; intros x X; cbn [fold_left]; [lra|].
    inversion Ha as [|? ? Hf Ha']; subst. specialize (Hf x X). specialize (IH Ha' (f x) ltac:(lra)). lra. }
  set (S := wave_total [] ws len) in *.
  assert (N : (0 <= IZR dims * W)%R) by (apply Rmult_le_pos; [apply IZR_le; lia|exact W0]).
  assert (S0 : (0 <= S)%R) by (eapply Rle_trans; [|exact T]; apply Rmult_le_pos; lra).
  destruct (Req_dec S 0) as [Z|NZ].
  - assert (W1 : (IZR dims * W = 0)%R).
    { destruct N as [N|N]; [|lra]. pose proof (Rmult_lt_0_compat _ _ N I0). lra. }
    rewrite W1. rewrite Rmult_0_r, Rmult_0_r. split; [|lra].
    apply Rmult_le_pos; [|lra]. unfold dt, compute_timestep. apply FA. fold S. rewrite Z.
    unfold Rdiv. rewrite Rinv_0. lra.
  - assert (Q : (0 <= cfl / S)%R) by (apply Rmult_le_pos; [lra|left; apply Rinv_0_lt_compat; lra]).
    specialize (FA _ Q). change (fold_left (fun dt f => f dt) adj (cfl / S)%R) with dt in FA.
    split; [apply Rmult_le_pos; lra|].
    replace (dt / len 0%Z * (kap * (IZR dims * W)))%R with (kap * (dt * (IZR dims * W * / len 0%Z)))%R by (unfold Rdiv; ring).
    apply Rle_trans with (kap * (cfl / S * S))%R.
    + apply Rmult_le_compat_l; [lra|]. apply Rmult_le_compat; try lra. apply Rmult_le_pos; lra.
    + replace (kap * (cfl / S * S))%R with (cfl * kap)%R by (field; lra). exact Hk.
Qed.
End M.

Theorem monotone_run e n k it b dims g nx ny nz p obeys vols sc adjs m M :
  monotone_scheme e n k -> strong_stability it ->
  1 <= dims <= 3 -> 1 <= g -> 0 < nx -> 0 < ny -> 0 < nz ->
  g <= nx -> (1 < dims -> g <= ny) -> (2 < dims -> g <= nz) ->
  total_cells dims g nx ny nz < 2 ^ 31 ->
  Forall (ext dims g nx ny nz) vols -> length vols = S (substeps it) -> scratch_ext dims g nx ny nz sc ->
  p_wadj p = [] -> square_cells dims (p_len p) -> (0 < p_cfl p <= k)%R ->
  (forall adj t, In adj adjs -> Forall shortening (adj t)) ->
  let u0 := vget (hd (ref (V := scalar_cvars) dims g nx ny nz) vols) in
  in_range dims g nx ny nz m M u0 ->
  let r := serial_run it b dims g (Flux2 (scalar_flux e n)) no_reconstruction p obeys vols sc adjs in
  (exists st, r = Ok st /\ (in_range dims g nx ny nz m M (solution st) /\
     (dims = 1%Z -> variation b dims g nx ny nz (solution st) <= variation b dims g nx ny nz u0)%R) /\
     s_steps st = length adjs) \/
  (r = Throw /\ exists u, obeys u = false).
Proof.
  intros Hm Hit Hd Hg Hx Hy Hz Gx Gy Gz Hc Hv Hl Hs Hwa Hsq Hcfl Hadj u0 H0 r.
  destruct (monotone_incremental e n k Hm) as (C & D & HF).
  assert (K : (0 < k <= 1)%R) by (destruct Hm; lra).
  assert (Kap : (1 <= / k)%R) by (rewrite <- Rinv_1; apply Rinv_le_contravar; lra).
  apply (run_preserves_timed it b dims g (Flux2 (scalar_flux e n)) no_reconstruction nx ny nz Hd
    (fx_comp g (flux_value e n) (flux_speed e) Hg) Hx Hy Hz Gx Gy Gz Hc
    (fun u : field scalar_cvars => in_range dims g nx ny nz m M u /\
      (dims = 1%Z -> variation b dims g nx ny nz u <= variation b dims g nx ny nz u0)%R)); auto.
  - intros adj t ws dt u u' Ia [P1 P2] Hws Hdt Hu.
    assert (X : exists W, (0 <= W)%R /\ (forall c, interior dims g nx ny nz c -> wave_speed e (u c) <= W)%R /\
      forall d, 0 <= d < dims -> (W <= ws d)%R).
    { destruct (extrema dims g nx ny nz Hd Hx Hy Hz u) as (c1 & c2 & I1 & I2 & X).
      exists (Rmax (wave_speed e (u c1)) (wave_speed e (u c2))). split; [|split].
      - eapply Rle_trans; [eapply (wave_speed_nonneg e n k (u c1) Hm)|apply Rmax_l].
      - intros c Hi. eapply wave_speed_between; eauto.
      - intros d Hd'. apply Rmax_lub;
          eapply (speed_bound b dims g nx ny nz (flux_value e n) (wave_speed e) (flux_speed e)); eauto; reflexivity. }
    destruct X as (W & W0 & W1 & W2).
    destruct (timestep_bound dims (/ k) Hd Kap (p_cfl p) (p_len p) ws (adj t) W) as [T1 T2]; auto; try lra.
    { apply Rmult_le_reg_r with k; [lra|]. rewrite Rmult_assoc, Rinv_l by lra. lra. }
    rewrite Hwa in Hdt. rewrite <- Hdt in T1, T2.
    destruct (textbook_bound b dims g nx ny nz (flux_value e n) (wave_speed e) (/ k) C D (flux_speed e)
       Hd Hg Hx Hy Hz Gx Gy Gz HF Kap) with (it := it) (h := (dt / p_len p 0)%R) (u := u) (u' := u')
       (m := m) (M := M) (W := W) as [Q1 Q2]; auto.
    + intros. eapply wave_speed_nonneg; eauto.
    + intros. eapply wave_speed_between; eauto.
    + split; [exact Q1|]. intros D1. specialize (P2 D1). specialize (Q2 D1). lra.
  - intros u u' [P1 P2] Hu. split.
    + intros c Hi. rewrite Hu by exact Hi. now apply P1.
    + intros D1. erewrite variation_ext; [now apply P2|..]; eauto.
  - split; [exact H0|]. intros _. right. reflexivity.
Qed.
