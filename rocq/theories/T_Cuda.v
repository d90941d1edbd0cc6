(** C70: the right hand side on a GPU. *)
From Coq Require Import ZArith Reals List Bool Lia Lra Permutation FunctionalExtensionality.
From Verif Require Import M_Base L_Base M_Vec M_Boundary M_Flux M_Sim M_Memory M_Scalar M_Recon S_Boundary S_Flux L_Loops L_Boundary L_Flux
  L_System L_FluxTop L_Conserve M_Omp L_Omp L_OmpFlux M_Cuda L_Cuda L_CudaFlux S_Cuda T_Omp T_Flux.
Import ListNotations.
Open Scope Z_scope.

Lemma reduced_iff x xs w : (In w (x :: xs) /\ forall y, In y (x :: xs) -> (y <= w)%R) ->
  forall w', reduced Rmax (x :: xs) w' <-> w' = w.
Proof.
  intros [Hi Hm] w'. assert (U : forall v, reduced Rmax (x :: xs) v -> v = w).
  { intros v Hv. apply reduced_max in Hv. destruct Hv as [Hv1 Hv2]. apply Rle_antisym; auto. }
  split; [apply U|]. intros ->. pose proof (reduced_fold Rmax xs x) as Hf. rewrite (U _ Hf) in Hf. exact Hf.
Qed.

Lemma of_direction_speeds V (fx : numflux V) rc u lo hi dims d : 0 <= d < dims ->
  map snd (filter (fun x => fst x =? d) (flat_map (speeds fx rc u lo hi) (zrange 0 dims))) =
  map (fun c => snd (iface fx rc d (vget u) c)) (ifaces lo hi d).
Proof.
  intros Hd. rewrite (zrange_app 0 d dims), (zrange_cons d dims), flat_map_app by lia. cbn [flat_map].
  change (map snd (filter (fun x => fst x =? d) ?l)) with (of_direction d l).
  assert (N : forall l, ~ In d l -> of_direction d (flat_map (speeds fx rc u lo hi) l) = []).
  { intros l Hl. apply of_direction_none. intros x Hx E. apply in_flat_map in Hx. destruct Hx as (e & He & Hx).
    unfold speeds in Hx. apply in_map_iff in Hx. destruct Hx as (c & <- & _). cbn in E. subst e. contradiction. }
  rewrite !of_direction_app. rewrite (N (zrange 0 d)), (N (zrange (d + 1) dims)) by (rewrite zrange_In; lia).
  rewrite app_nil_r. cbn [app]. rewrite of_direction_all.
  - unfold speeds. rewrite map_map. reflexivity.
  - intros x Hx. unfold speeds in Hx. apply in_map_iff in Hx. destruct Hx as (c & <- & _). reflexivity.
Qed.

(** Every region [start, fin] with at least one cell, as used for the parts of a
    decomposed run too: one outcome, with the right hand side in the region and the
    speeds of its interfaces. *)
Theorem C70_region (V : cvars) dims g (fx : numflux V) rk rc (u : vol V) s start fin lo hi :
  1 <= dims <= 3 -> compatible fx rc g -> kernel_for rk rc ->
  (forall k, dir k -> lo k = ghost dims g k + start k) ->
  (forall k, dir k -> hi k = total u k - ghost dims g k + fin k) ->
  reg_ok dims g u lo hi -> (forall k, dir k -> lo k < hi k) -> vsize u < 2 ^ 31 -> st_dims u s ->
  exists s' xs,
    (forall r, outcomes (cuda_size (total u) (total u))
        (cuda_compute_flux dims g fx rk rc (total u) (total u) start fin) (flux_mem u s) r <->
      r = Ok (flux_mem u s', xs)) /\
    st_dims u s' /\
    (forall c, inr u c -> vget (f_out s') c =
       if inreg lo hi c then rhs dims fx rc (vget u) c else vget (f_out s) c) /\
    forall d, 0 <= d < dims -> exists w,
      (forall w', reduced Rmax (map snd (filter (fun x => fst x =? d) xs)) w' <-> w' = w) /\
      largest (fun c => In c (ifaces lo hi d)) (fun c => snd (iface fx rc d (vget u) c)) w.
Proof.
  intros Hdims Hcomp Hrk Hlo Hhi Hreg Hne Hsz Hs.
  assert (HR : memrel (vnx u) (vny u) (vnz u) u s (flux_mem u s)).
  { destruct Hs as (H1 & H2 & H3 & H4). unfold memrel, dims3, same_dims in *.
    destruct H1 as (? & ? & ?), H2 as (? & ? & ?), H3 as (? & ? & ?), H4 as (? & ? & ?). repeat split; congruence. }
  destruct (cuda_compute dims g fx rk rc Hdims Hcomp Hrk u start fin lo hi Hlo Hhi Hreg Hne Hsz s _ HR Hs)
    as (s' & m' & Hr & HR' & D' & W').
  pose proof (cuda_independent dims g fx rk rc Hdims Hcomp Hrk u start fin lo hi Hlo Hhi Hreg Hne Hsz) as Hi.
  rewrite <- size_same in Hr.
  destruct (outcomes_unique _ _ _ _ Hi Hr) as [O U].
  assert (m' = flux_mem u s') as -> by (extensionality a; extensionality i; apply HR').
  exists s', (flat_map (speeds fx rc u lo hi) (zrange 0 dims)).
  split; [intros r; split; [apply U|intros ->; exact O]|]. split; [exact D'|]. split; [exact W'|].
  intros d Hd. rewrite of_direction_speeds by exact Hd.
  assert (In (lo 0 - unit_ d 0, lo 1 - unit_ d 1, lo 2 - unit_ d 2) (ifaces lo hi d)) as Hin.
  { unfold ifaces. apply inbox_In. apply inbox_iff.
    pose proof (Hne 0 d0). pose proof (Hne 1 d1). pose proof (Hne 2 d2). unfold unit_.
    destruct (d =? 0), (d =? 1), (d =? 2); cbn [b2z]; lia. }
  destruct (ifaces lo hi d) as [|c0 cs] eqn:Ei; [destruct Hin|].
  set (h := fun c => snd (iface fx rc d (vget u) c)).
  pose proof (reduced_fold Rmax (map h cs) (h c0)) as Hf. apply reduced_max in Hf. destruct Hf as [F1 F2].
  exists (fold_left Rmax (map h cs) (h c0)). split.
  - cbn [map]. apply reduced_iff. auto.
  - change (h c0 :: map h cs) with (map h (c0 :: cs)) in F1, F2. apply in_map_iff in F1. destruct F1 as (c & Ec & Hc). split.
    + exists c. split; [exact Hc|]. symmetry. exact Ec.
    + intros c' Hc'. apply F2. apply in_map_iff. exists c'. auto.
Qed.

(** ... which is what the CPU computes. *)
Theorem C70_same_as_cpu (V : cvars) dims g (fx : numflux V) rk rc (u : vol V) s start fin lo hi :
  1 <= dims <= 3 -> compatible fx rc g -> kernel_for rk rc ->
  (forall k, dir k -> lo k = ghost dims g k + start k) ->
  (forall k, dir k -> hi k = total u k - ghost dims g k + fin k) ->
  reg_ok dims g u lo hi -> (forall k, dir k -> lo k < hi k) -> vsize u < 2 ^ 31 -> st_dims u s ->
  exists s' s1 xs,
    compute_flux dims g fx rc u start fin s = Ok s1 /\
    (forall r, outcomes (cuda_size (total u) (total u))
        (cuda_compute_flux dims g fx rk rc (total u) (total u) start fin) (flux_mem u s) r <->
      r = Ok (flux_mem u s', xs)) /\
    (forall c, inr u c -> vget (f_out s') c = vget (f_out s1) c) /\
    forall d w, 0 <= d < dims -> reduced Rmax (map snd (filter (fun x => fst x =? d) xs)) w ->
      Rmax 0 w = f_speed s1 d /\
      ((forall c, In c (ifaces lo hi d) -> (0 <= snd (iface fx rc d (vget u) c))%R) -> w = f_speed s1 d).
Proof.
  intros Hdims Hcomp Hrk Hlo Hhi Hreg Hne Hsz Hs.
  destruct (C70_region V dims g fx rk rc u s start fin lo hi Hdims Hcomp Hrk Hlo Hhi Hreg Hne Hsz Hs)
    as (s' & xs & O & _ & W & S).
  destruct (compute_flux_spec dims g fx rc Hdims Hcomp u s start fin lo hi Hlo Hhi Hreg Hs) as (s1 & E1 & _ & W1 & S1 & _).
  exists s', s1, xs. split; [exact E1|]. split; [exact O|]. split; [intros c Hc; rewrite W, W1 by exact Hc; reflexivity|].
  intros d w Hd Hw. destruct (S d Hd) as (w0 & U & (c & Hc & Ew) & M). apply U in Hw. subst w0. rewrite (S1 d Hd).
  assert (X : max_speed fx rc lo hi d (vget u) = Rmax 0 w).
  { pose proof (max_speed_spec fx rc lo hi d (vget u)) as (P & Q & T). apply Rle_antisym.
    - destruct T as [->|(c' & Hc' & ->)]; [apply Rmax_l|]. eapply Rle_trans; [apply M, ifaces_iff; exact Hc'|apply Rmax_r].
    - apply Rmax_lub; [exact P|]. rewrite Ew. apply Q. apply ifaces_iff. exact Hc. }
  rewrite X. split; [reflexivity|]. intros Hpos. rewrite Rmax_right; [reflexivity|]. rewrite Ew. apply Hpos. exact Hc.
Qed.

(** The kernels keep inside the buffer of the wave speeds
    (NumericalFluxCUDA.cu lines 311, 344 and 118): thread [i] of the interfaces
    writes element [i]. *)
Theorem C70_speed_buffer (V : cvars) dims g (fx : numflux V) rc (u : vol V) start fin lo hi d :
  1 <= dims <= 3 -> compatible fx rc g ->
  (forall k, dir k -> lo k = ghost dims g k + start k) ->
  (forall k, dir k -> hi k = total u k - ghost dims g k + fin k) ->
  reg_ok dims g u lo hi -> (forall k, dir k -> lo k < hi k) -> 0 <= d < dims ->
  let n k := total u k - 2 * ghost dims g k + unit_ d k - start k + fin k in
  0 < n 0 * n 1 * n 2 <= vsize u.
Proof.
  intros Hdims Hcomp Hlo Hhi Hreg Hne Hd n. assert (Dd : dir d) by (unfold dir; lia).
  assert (B : forall k, dir k -> 0 < n k <= total u k).
  { intros k Hk. pose proof (Hlo k Hk). pose proof (Hhi k Hk). pose proof (Hne k Hk). pose proof (Hreg k Hk) as Hr.
    pose proof (proj1 Hcomp). unfold n, unit_, ghost in *.
    destruct (Z.eqb_spec d k) as [->|]; cbn [b2z]; destruct (Z.ltb_spec k dims); lia. }
  pose proof (B 0 d0) as (P0 & Q0). pose proof (B 1 d1) as (P1 & Q1). pose proof (B 2 d2) as (P2 & Q2).
  unfold total in Q0, Q1, Q2. cbn [Z.eqb Pos.eqb] in Q0, Q1, Q2. unfold vsize. split.
  - apply Z.mul_pos_pos; [apply Z.mul_pos_pos|]; lia.
  - apply Z.mul_le_mono_nonneg; [apply Z.mul_nonneg_nonneg; lia| |lia|lia]. apply Z.mul_le_mono_nonneg; lia.
Qed.

(** * The property *)

(** As stated: the conserved volume has at least the ghost cells of the flux
    (ConservedSystem.cpp takes the maximum with those of the diffusion operator). *)
Definition every_gpu_run : Prop :=
  forall (V : cvars) dims g G (fx : numflux V) rk rc nx ny nz,
  1 <= dims <= 3 -> compatible fx rc g -> kernel_for rk rc -> g <= G -> 0 < nx -> 0 < ny -> 0 < nz ->
  extents dims G nx ny nz 0 * extents dims G nx ny nz 1 * extents dims G nx ny nz 2 < 2 ^ 31 ->
  gpu_right_hand_side dims g G fx rk rc nx ny nz.

Lemma place_at E c : place E c = (let '(x, y, z) := c in at_ E x y z).
Proof. destruct c as [[x y] z]. unfold place, at_, index. lia. Qed.

Theorem C70_gpu_partial (V : cvars) dims g (fx : numflux V) rk rc nx ny nz :
  1 <= dims <= 3 -> compatible fx rc g -> kernel_for rk rc -> 0 < nx -> 0 < ny -> 0 < nz ->
  extents dims g nx ny nz 0 * extents dims g nx ny nz 1 * extents dims g nx ny nz 2 < 2 ^ 31 ->
  gpu_right_hand_side dims g g fx rk rc nx ny nz.
Proof.
  intros Hdims Hcomp Hrk Hx Hy Hz Hsz du dl dr dt do. cbv zeta.
  set (W := extents dims g nx ny nz) in *.
  pose (v := fun f : Z -> V => mkvol (W 0) (W 1) (W 2) f).
  set (u := v du). set (s := mkfstate (v dl) (v dr) (v dt) (v do) (fun _ => 0%R)).
  assert (Hg : 1 <= g) by (destruct Hcomp; lia).
  assert (EW : total u = W) by reflexivity.
  assert (Eu : ext dims g nx ny nz u) by (repeat split; reflexivity).
  assert (Es : st_dims u s) by (repeat split; reflexivity).
  assert (P : forall (x : vol V) c, vnx x = W 0 -> vny x = W 1 -> vget x c = vdat x (place W c)).
  { intros x [[i j] k] E0 E1. unfold vget, place, index. rewrite E0, E1. f_equal; lia. }
  assert (Pu : forall c, vget u c = du (place W c)) by (intros c; rewrite P; reflexivity).
  assert (T : forall k, dir k -> 2 * ghost dims g k < total u k).
  { intros k Hk. rewrite EW. unfold W, extents, ghost. destruct Hk as [->|[->| ->]]; cbn [Z.eqb Pos.eqb];
    repeat match goal with |- context [?a <? dims] => destruct (Z.ltb_spec a dims) end; lia. }
  set (lo := int_lo dims g). set (hi := int_hi dims g u).
  destruct (C70_region V dims g fx rk rc u s (fun _ => 0) (fun _ => 0) lo hi) as (s' & xs & O & D' & Wo & S); try assumption.
  - intros k Hk. unfold lo, int_lo. lia.
  - intros k Hk. unfold hi, int_hi. lia.
  - intros k Hk. pose proof (T k Hk). unfold lo, hi, int_lo, int_hi. lia.
  - intros k Hk. pose proof (T k Hk). unfold lo, hi, int_lo, int_hi. lia.
  - rewrite EW in O. exists (flux_mem u s'), xs. split; [exact O|].
    assert (Q : forall c, flux_mem u s' a_out (place W c) = vget (f_out s') c).
    { intros c. destruct D' as (_ & _ & _ & X1 & X2 & X3). symmetry. apply P; rewrite <- ?X1, <- ?X2; reflexivity. }
    assert (Fu : vget u = fun c => du (place W c)) by (extensionality c; apply Pu).
    rewrite Fu in Wo, S.
    split; [|split; [|split; [reflexivity|]]].
    + intros c Hc. assert (Hr : inreg lo hi c = true) by (apply (int_inreg dims g nx ny nz Hdims u c Eu); exact Hc).
      rewrite Q, Wo, Hr; [reflexivity|]. exact (interior_inr dims g fx rc Hcomp u c Hr).
    + intros c Hv Hn. rewrite Q, Wo.
      * destruct (inreg lo hi c) eqn:Hr; [|exact (P (v do) c eq_refl eq_refl)].
        exfalso. apply Hn. apply (int_inreg dims g nx ny nz Hdims u c Eu). exact Hr.
      * apply (in_volume_iff u dims g nx ny nz c); [lia|exact Eu|exact Hv].
    + intros d Hd. destruct (S d Hd) as (w & U & (c & Hc & Ec) & M). exists w. split; [exact U|]. split.
      * exists c. split; [|exact Ec]. apply (iface_of_faces dims g nx ny nz Hdims Hx Hy Hz u d c Eu Hd). apply ifaces_iff. exact Hc.
      * intros c' Hc'. apply M. apply ifaces_iff. apply (iface_of_faces dims g nx ny nz Hdims Hx Hy Hz u d c' Eu Hd). exact Hc'.
Qed.

Lemma run_outcomes {A X} size (pss : list (list (prog A X))) : forall m x, run_loops size pss m = Ok x ->
  outcomes size pss m (Ok x).
Proof.
  induction pss as [|ps pss IH]; intros m x H.
  - cbn in H. injection H as <-. constructor.
  - rewrite run_loops_cons in H.
    destruct (run_loop size ps m) as [[m1 xs]| |] eqn:E1; cbn in H; try discriminate.
    destruct (run_loops size pss m1) as [[m2 ys]| |] eqn:E2; cbn in H; try discriminate.
    injection H as <-. apply (outcomes_ok _ _ _ _ m1 xs); [|apply IH; exact E2].
    unfold run_loop in E1. destruct (run_loop_psteps _ ps _ _ _ _ E1 []) as (n & xss & Hn & ->).
    cbn in Hn. econstructor. exact Hn.
Qed.

(** One cell, upwind flux, one ghost cell for the flux and two for the diffusion
    operator: the only interior cell stays at zero. *)
Definition gpu_upwind : numflux scalar_cvars := Flux2 (V := scalar_cvars) (fun _ l _ => (l, 1%R)).
Theorem C70_gpu_refuted : ~ every_gpu_run.
Proof.
  intros H.
  specialize (H scalar_cvars 1 1 2 gpu_upwind CudaCopy no_reconstruction 1 1 1).
  assert (G : gpu_right_hand_side 1 1 2 gpu_upwind CudaCopy no_reconstruction 1 1 1).
  { apply H; try lia; [split; [cbn; lia|exact I]|reflexivity|reflexivity]. }
  clear H. destruct (G (fun i => IZR i) (fun _ => 0%R) (fun _ => 0%R) (fun _ => 0%R) (fun _ => 0%R))
    as (m' & xs & O & I & _).
  set (U := extents 1 2 1 1 1) in *. set (L := extents 1 1 1 1 1) in *.
  assert (exists m1 xs1, run_loops (cuda_size U L)
    (cuda_compute_flux 1 1 gpu_upwind CudaCopy no_reconstruction U L (fun _ => 0) (fun _ => 0))
    (arrays (V := scalar_cvars) (fun i => IZR i) (fun _ => 0%R) (fun _ => 0%R) (fun _ => 0%R) (fun _ => 0%R)) = Ok (m1, xs1)
    /\ m1 a_out 2 = 0%R) as (m1 & xs1 & R1 & E1).
  { eexists. eexists. split; [lazy -[Rplus Rmult IZR Ropp]; reflexivity|]. lazy -[Rplus Rmult IZR Ropp]. reflexivity. }
  apply run_outcomes in R1. apply O in R1. injection R1 as <- _.
  specialize (I (2, 0, 0)). assert (interior 1 2 1 1 1 (2, 0, 0)) as Hi by (unfold interior, interior1; cbn; lia).
  specialize (I Hi). change (place U (2, 0, 0)) with 2 in I. rewrite E1 in I.
  lazy -[Rplus Rmult IZR Ropp] in I. lra.
Qed.

(** The hypotheses of [C70_gpu_partial] are met by a reconstruction of order two in
    two dimensions, and with one ghost cell for everybody the cell of
    [C70_gpu_refuted] gets its right hand side. *)
Example C70_nonvacuous :
  gpu_right_hand_side 2 2 2 small_fx CudaKernel small_rc 3 2 1 /\
  gpu_right_hand_side 2 2 2 small_fx CudaEno small_rc 3 2 1 /\
  gpu_right_hand_side 3 1 1 gpu_upwind CudaCopy no_reconstruction 2 2 2.
Proof.
  split; [|split]; apply C70_gpu_partial; try lia; try reflexivity; try (split; [cbn; lia|exact I]); cbn; try lia.
Qed.
Example C70_example_cell :
  exists m' xs, outcomes (cuda_size (extents 1 1 1 1 1) (extents 1 1 1 1 1))
    (cuda_compute_flux 1 1 gpu_upwind CudaCopy no_reconstruction (extents 1 1 1 1 1) (extents 1 1 1 1 1) (fun _ => 0) (fun _ => 0))
    (arrays (V := scalar_cvars) (fun i => IZR i) (fun _ => 0%R) (fun _ => 0%R) (fun _ => 0%R) (fun _ => 7%R)) (Ok (m', xs)) /\
    m' a_out 1 = (-1)%R /\ m' a_out 0 = 7%R.
Proof.
  eexists. eexists. split; [apply run_outcomes; lazy -[Rplus Rmult IZR Ropp]; reflexivity|].
  split; lazy -[Rplus Rmult IZR Ropp]; lra.
Qed.

(** The regions of a decomposed run: the inner one of 5 cells per direction. *)
Example C70_nonvacuous_region :
  let u : vol scalar_cvars := mkvol 9 9 1 (fun i => IZR i) in
  let lo := inner_lo 2 2 in let hi := inner_hi 2 2 u in
  (forall k, dir k -> lo k = ghost 2 2 k + ghost 2 2 k) /\
  (forall k, dir k -> hi k = total u k - ghost 2 2 k + - ghost 2 2 k) /\
  reg_ok 2 2 u lo hi /\ (forall k, dir k -> lo k < hi k) /\ vsize u < 2 ^ 31 /\
  inreg lo hi (4, 4, 0) = true.
Proof.
  cbv zeta. unfold reg_ok, inner_lo, inner_hi, ghost, total, vsize, dir. cbn [vnx vny vnz].
  repeat split; try (intros k [->|[->| ->]]; cbn; lia); try (destruct H as [->|[->| ->]]; cbn; lia).
Qed.

Print Assumptions C70_region.
Print Assumptions C70_same_as_cpu.
Print Assumptions C70_speed_buffer.
Print Assumptions C70_gpu_partial.
Print Assumptions C70_gpu_refuted.
