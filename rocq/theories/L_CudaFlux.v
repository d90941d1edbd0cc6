(** The kernels of the right hand side. *)
From Coq Require Import ZArith Reals List Bool Lia Lra Permutation FunctionalExtensionality.
From Verif Require Import M_Base L_Base M_Vec M_Boundary M_Flux S_Boundary S_Flux L_Loops L_Boundary L_Flux
  M_Sim M_Memory M_Omp L_Omp L_OmpFlux M_Cuda L_Cuda.
Import ListNotations.
Open Scope Z_scope.

Section Refine.
Context {A X : Type}.
Variables (size : Z -> Z) (nx ny nz : Z).
Lemma for3_refine zlo zhi ylo yhi xlo xhi (b1 b2 : Z -> Z -> Z -> prog A X) s r :
  (forall x y z m r, run size (b1 x y z) m = Ok r -> run size (b2 x y z) m = Ok r) ->
  for3 zlo zhi ylo yhi xlo xhi (acc3 size b1) s = Ok r ->
  for3 zlo zhi ylo yhi xlo xhi (acc3 size b2) s = Ok r.
Proof.
  intros H E. destruct (for3_sim _ _ _ _ _ _ _ _ _ E (acc3 size b2) (fun a b => a = b) s) as (t & E2 & <-); auto.
  intros x y z s0 t0 s' <- Hs. exists s'. split; [|reflexivity]. unfold acc3 in *.
  destruct (run size (b1 x y z) (fst s0)) as [q| |] eqn:Eq; cbn [bind] in Hs; try discriminate.
  rewrite (H _ _ _ _ _ Eq). exact Hs.
Qed.
Lemma refine_pload a x y z k m r : run size (pload (A := A) (X := X) nx ny nz a x y z k) m = Ok r ->
  run size (Fetch a (index nx ny x y z) k) m = Ok r.
Proof. unfold pload. destruct (cell_in nx ny nz x y z); [auto|discriminate]. Qed.
Lemma refine_pstore a x y z v k m r : run size (pstore (A := A) (X := X) nx ny nz a x y z v k) m = Ok r ->
  run size (Store a (index nx ny x y z) v k) m = Ok r.
Proof. unfold pstore. destruct (cell_in nx ny nz x y z); [auto|discriminate]. Qed.
Lemma run_fetch_inv a i k m r : run size (Fetch (A := A) (X := X) a i k) m = Ok r ->
  inside size a i = true /\ run size (k (m a i)) m = Ok r.
Proof. cbn. destruct (inside size a i); [auto|discriminate]. Qed.
Lemma run_fetch_intro a i k m r : inside size a i = true -> run size (k (m a i)) m = Ok r ->
  run size (Fetch (A := A) (X := X) a i k) m = Ok r.
Proof. intros H E. cbn. rewrite H. exact E. Qed.
End Refine.

Section K.
Context {V : cvars}.
Variables (dims g : Z) (fx : numflux V) (rk : cuda_recon) (rc : recon V).
Hypothesis Hdims : 1 <= dims <= 3.
Hypothesis Hcomp : compatible fx rc g.
(** NoReconstructionCUDA is the one that copies; the others have at least two
    ghost cells. *)
Definition kernel_for : Prop :=
  match rk with CudaCopy => rc = no_reconstruction | _ => 2 <= rec_ghosts rc end.
Hypothesis Hrk : kernel_for.
Variables (u : vol V) (start fin lo hi : Z -> Z).
Notation ng := (ghost dims g).
Hypothesis (Hlo : forall k, dir k -> lo k = ng k + start k).
Hypothesis (Hhi : forall k, dir k -> hi k = total u k - ng k + fin k).
Hypothesis Hreg : reg_ok dims g u lo hi.
Hypothesis Hne : forall k, dir k -> lo k < hi k.
Hypothesis Hsz : vsize u < 2 ^ 31.

Notation nx := (vnx u). Notation ny := (vny u). Notation nz := (vnz u).
Definition E : ivec := total u.
Notation size := (area nx ny nz).
Notation pr := (prog V (Z * R)).

Lemma size_same : cuda_size E E = size.
Proof.
  extensionality a. unfold cuda_size, area, E, total. destruct ((a =? a_u) || (a =? a_out)); reflexivity.
Qed.
Lemma d0 : dir 0. Proof. unfold dir; auto. Qed.
Lemma d1 : dir 1. Proof. unfold dir; auto. Qed.
Lemma d2 : dir 2. Proof. unfold dir; auto. Qed.
Lemma ng0 k : 0 <= ng k.
Proof. unfold ghost. destruct Hcomp. destruct (_ <? _); lia. Qed.

(** A box inside the volume is a valid launch. *)
Lemma good_box (n l h : ivec) : (forall k, dir k -> n k = h k - l k /\ 0 <= l k /\ l k < h k /\ h k <= total u k) -> good n.
Proof.
  intros H. destruct (H 0 d0) as (E0 & A0 & B0 & C0). destruct (H 1 d1) as (E1 & A1 & B1 & C1).
  destruct (H 2 d2) as (E2 & A2 & B2 & C2). unfold total in C0, C1, C2. cbn [Z.eqb Pos.eqb] in *.
  unfold good. rewrite E0, E1, E2.
  do 3 (split; [lia|]). eapply Z.le_lt_trans; [|exact Hsz]. unfold vsize.
  apply Z.mul_le_mono_nonneg; [apply Z.mul_nonneg_nonneg; lia| |lia|lia].
  apply Z.mul_le_mono_nonneg; lia.
Qed.

Section Dir.
Variable d : Z.
Hypothesis Hd : dir d.
Hypothesis Hlt : d < dims.

Lemma unit_if k : unit_ d k = if k =? d then 1 else 0.
Proof. unfold unit_. rewrite Z.eqb_sym. destruct (k =? d); reflexivity. Qed.
Lemma ngd : 1 <= ng d.
Proof. unfold ghost. destruct Hcomp. destruct (Z.ltb_spec d dims); lia. Qed.
Lemma low k : dir k -> 0 <= lo k - unit_ d k /\ hi k + unit_ d k <= total u k.
Proof.
  intros Hk. specialize (Hreg k Hk). rewrite unit_if. pose proof (ng0 k). pose proof ngd.
  destruct (Z.eqb_spec k d) as [->|]; lia.
Qed.

(** The boxes. *)
Lemma zero_good : good (fun k => E k - 2 * ghost dims g k - start k + fin k).
Proof.
  apply (good_box _ lo hi). intros k Hk. specialize (Hlo k Hk). specialize (Hhi k Hk). specialize (Hne k Hk).
  specialize (Hreg k Hk). pose proof (ng0 k). unfold E. lia.
Qed.
Lemma flux_good : good (fun k => E k - 2 * ghost dims g k + unit_ d k - start k + fin k).
Proof.
  apply (good_box _ (fun k => lo k - unit_ d k) hi). intros k Hk. pose proof (low k Hk).
  specialize (Hlo k Hk). specialize (Hhi k Hk). specialize (Hne k Hk).
  specialize (Hreg k Hk). unfold E. rewrite unit_if in *. destruct (k =? d); lia.
Qed.
Lemma combine_good : good (fun k => E k - 2 * ghost dims g k - start k + fin k).
Proof. exact zero_good. Qed.

Ltac bounds := rewrite ?Hlo, ?Hhi by (first [exact d0|exact d1|exact d2]);
  unfold E, total; cbn [Z.eqb Pos.eqb]; lia.

Lemma run_zero l r t o sp m o' : memrel nx ny nz u (mkfstate l r t o sp) m ->
  make_zero dims g start fin o = Ok o' ->
  exists m', run_loop size (cuda_zero dims g E start fin) m = Ok (m', []) /\
    memrel nx ny nz u (mkfstate l r t o' sp) m'.
Proof.
  intros HR H. destruct (zero_sim dims g nx ny nz start fin _ _ _ _ _ _ _ _ HR H) as (m' & Hr & HR').
  exists m'. split; [|exact HR']. unfold omp_make_zero in Hr. rewrite run_par_y in Hr.
  unfold cuda_zero, M_Omp.pr. rewrite run_kernel by (try lia; exact zero_good).
  assert (forall a b c d e f a' b' c' d' e' f' (bd : Z -> Z -> Z -> pr) s, a = a' -> b = b' -> c = c' -> d = d' -> e = e' -> f = f' ->
    for3 a b c d e f (acc3 size bd) s = for3 a' b' c' d' e' f' (acc3 size bd) s) as Heq by (intros; subst; reflexivity).
  rewrite Heq with (a' := ng 2 + start 2) (b' := nz - ng 2 + fin 2) (c' := ng 1 + start 1) (d' := ny - ng 1 + fin 1)
    (e' := ng 0 + start 0) (f' := nx - ng 0 + fin 0) by bounds.
  revert Hr. apply for3_refine. intros x y z m0 r0. unfold zero_body, at_, E, total. cbn [Z.eqb Pos.eqb].
  apply refine_pstore.
Qed.

Lemma refine_fetches a cs : forall (k : list V -> pr) m r,
  run size (ploads nx ny nz a cs k) m = Ok r ->
  run size (fetches a (map (fun c => let '(x, y, z) := c in index nx ny x y z) cs) k) m = Ok r.
Proof.
  induction cs as [|[[x y] z] cs IH]; cbn [ploads fetches map]; intros k m r H; [exact H|].
  apply refine_pload in H. apply run_fetch_inv in H. destruct H as [Hi H].
  apply run_fetch_intro; [exact Hi|]. apply IH. exact H.
Qed.

Lemma refine_flux x y z m r : run size (flux_body fx nx ny nz d x y z) m = Ok r ->
  run size (let finish (fs : V * R) := Store a_temp (at_ E x y z) (vscal (-1) (fst fs)) (Ret [(d, snd fs)]) in
      match fx with
      | Flux2 f =>
          Fetch a_left (at_ E (x + unit_ d 0) (y + unit_ d 1) (z + unit_ d 2)) (fun r =>
          Fetch a_right (at_ E x y z) (fun l => finish (f d l r)))
      | FluxN st f =>
          fetches a_left (map (fun s => at_ E (x + unit_ d 0 * s) (y + unit_ d 1 * s) (z + unit_ d 2 * s)) st)
            (fun us => finish (f d us))
      end) m = Ok r.
Proof.
  unfold at_, E, total. cbn [Z.eqb Pos.eqb]. unfold flux_body. clear. intros H. cbv zeta in *. destruct fx as [f|st f].
  - apply refine_pload in H. apply run_fetch_inv in H. destruct H as [H1 H].
    apply refine_pload in H. apply run_fetch_inv in H. destruct H as [H2 H]. apply refine_pstore in H.
    do 2 (apply run_fetch_intro; [assumption|]). exact H.
  - assert (forall us m r, run size (pstore nx ny nz a_temp x y z (vscal (-1) (fst (f d us))) (Ret [(d, snd (f d us))])) m = Ok r ->
      run size (Store a_temp (index nx ny x y z) (vscal (-1) (fst (f d us))) (Ret [(d, snd (f d us))])) m = Ok r) as K
      by (intros us m0 r0; apply refine_pstore).
    assert (forall cs (k1 k2 : list V -> pr) m r, (forall us m r, run size (k1 us) m = Ok r -> run size (k2 us) m = Ok r) ->
      run size (ploads nx ny nz a_left cs k1) m = Ok r ->
      run size (fetches a_left (map (fun c => let '(x, y, z) := c in index nx ny x y z) cs) k2) m = Ok r) as G.
    { induction cs as [|[[x1 y1] z1] cs IH]; cbn [ploads fetches map]; intros k1 k2 m1 r1 Hk H1; [apply Hk; exact H1|].
      apply refine_pload in H1. apply run_fetch_inv in H1. destruct H1 as [Hi H1].
      apply run_fetch_intro; [exact Hi|]. eapply IH; [|exact H1]. intros us; apply Hk. }
    eapply G in H; [|exact K]. rewrite map_map in H. exact H.
Qed.

Lemma refine_combine x y z m r : run size (difference_body (V := V) nx ny nz d x y z) m = Ok r ->
  run size (let right := at_ E (x + unit_ d 0) (y + unit_ d 1) (z + unit_ d 2) in
      Fetch a_temp (at_ E x y z) (fun m =>
      Fetch a_temp right (fun r =>
      Fetch a_out right (fun old =>
      Store a_out right (vadd old (vadd (vscal (-1) m) r)) (Ret []))))) m = Ok r.
Proof.
  unfold at_, E, total. cbn [Z.eqb Pos.eqb]. unfold difference_body. cbv zeta. intros H.
  apply refine_pload in H. apply run_fetch_inv in H. destruct H as [H1 H].
  apply refine_pload in H. apply run_fetch_inv in H. destruct H as [H2 H].
  apply refine_pload in H. apply run_fetch_inv in H. destruct H as [H3 H].
  apply refine_pstore in H.
  do 3 (apply run_fetch_intro; [assumption|]).
  assert (forall a b : V, vadd a b = vadd b a) as C by (intros; apply comp_ext; intros; rewrite !comp_add; ring).
  rewrite (C (vscal (-1) _)). exact H.
Qed.

Lemma run_flux l r t o sp m o' t' w : memrel nx ny nz u (mkfstate l r t o sp) m ->
  net_flux dims g fx d l r o t start fin = Ok (o', t', w) ->
  exists m' xs, run_loops size [cuda_flux dims g fx E start fin d; cuda_combine dims g E E start fin d] m = Ok (m', xs) /\
    memrel nx ny nz u (mkfstate l r t' o' sp) m' /\ w = top (map snd xs) /\ (forall x, In x xs -> fst x = d) /\
    exists m1, for3 (lo 2 - unit_ d 2) (hi 2) (lo 1 - unit_ d 1) (hi 1) (lo 0 - unit_ d 0) (hi 0)
        (acc3 size (flux_body fx nx ny nz d)) (m, []) = Ok (m1, xs).
Proof.
  intros HR H. destruct (flux_sim dims g fx nx ny nz start fin _ _ _ _ _ _ _ _ _ _ _ HR H) as (m' & xs & Hr & HR' & Hw & Hx).
  unfold omp_net_flux in Hr. cbv zeta in Hr. rewrite run_loops_app, run_par_y in Hr.
  destruct (for3 _ _ _ _ _ _ (acc3 size (flux_body fx nx ny nz d)) (m, [])) as [[m1 xs1]| |] eqn:H1; cbn [bind fst snd] in Hr; try discriminate.
  rewrite run_par_y in Hr.
  destruct (for3 _ _ _ _ _ _ (acc3 size (difference_body nx ny nz d)) (m1, [])) as [[m2 xs2]| |] eqn:H2; cbn [bind fst snd] in Hr; try discriminate.
  injection Hr as <- <-.
  assert (xs2 = []) as ->.
  { destruct (for3_sim _ _ _ _ _ _ _ _ _ H2 (fun _ _ _ (s : unit) => Ok s) (fun s _ => snd s = []) tt) as (t1 & _ & Hs); auto.
    clear. intros x y z [q ys] tt0 s' Hy Hs. exists tt0. split; [reflexivity|]. cbn [snd] in Hy. subst ys.
    unfold acc3, difference_body, pload, pstore in Hs. cbn [fst snd] in Hs.
    repeat (match type of Hs with context [if ?b then _ else _] => destruct b; cbn [run bind fst snd app] in Hs end; try discriminate).
    injection Hs as <-. reflexivity. }
  rewrite app_nil_r in *.
  exists m2, xs1. split; [|split; [exact HR'|split; [exact Hw|split; [exact Hx|]]]].
  - unfold M_Omp.pr. rewrite run_loops_cons. unfold cuda_flux, M_Omp.pr. rewrite run_kernel by (try lia; exact flux_good).
    assert (forall a b c d e f a' b' c' d' e' f' (bd : Z -> Z -> Z -> pr) s, a = a' -> b = b' -> c = c' -> d = d' -> e = e' -> f = f' ->
      for3 a b c d e f (acc3 size bd) s = for3 a' b' c' d' e' f' (acc3 size bd) s) as Heq by (intros; subst; reflexivity).
    rewrite Heq with (a' := ng 2 - unit_ d 2 + start 2) (b' := nz - ng 2 + fin 2)
      (c' := ng 1 - unit_ d 1 + start 1) (d' := ny - ng 1 + fin 1)
      (e' := ng 0 - unit_ d 0 + start 0) (f' := nx - ng 0 + fin 0) by bounds.
    erewrite for3_refine; [|intros x y z m0 r0; apply refine_flux|exact H1]. cbn [bind fst snd].
    rewrite run_loops_cons. unfold cuda_combine, M_Omp.pr. rewrite run_kernel by (try lia; exact combine_good).
    rewrite Heq with (a' := ng 2 - unit_ d 2 + start 2) (b' := nz - ng 2 + fin 2 - unit_ d 2)
      (c' := ng 1 - unit_ d 1 + start 1) (d' := ny - ng 1 + fin 1 - unit_ d 1)
      (e' := ng 0 - unit_ d 0 + start 0) (f' := nx - ng 0 + fin 0 - unit_ d 0) by bounds.
    erewrite for3_refine; [|intros x y z m0 r0; apply refine_combine|exact H2]. cbn. rewrite app_nil_r. reflexivity.
  - exists m1. rewrite <- H1.
    assert (forall a b c d e f a' b' c' d' e' f' (bd : Z -> Z -> Z -> pr) s, a = a' -> b = b' -> c = c' -> d = d' -> e = e' -> f = f' ->
      for3 a b c d e f (acc3 size bd) s = for3 a' b' c' d' e' f' (acc3 size bd) s) as Heq by (intros; subst; reflexivity).
    apply Heq; bounds.
Qed.

(** The wave speeds the threads deliver, in their order. *)
Definition speeds : list (Z * R) := map (fun c => (d, snd (iface fx rc d (vget u) c))) (ifaces lo hi d).

Lemma fold_snoc {B C} (h : B -> C) l : forall w, fold_left (fun w c => w ++ [h c]) l w = w ++ map h l.
Proof.
  induction l as [|c l IH]; intros w; cbn; [rewrite app_nil_r; reflexivity|]. rewrite IH, <- app_assoc. reflexivity.
Qed.

Lemma flux_list l r t o sp m m1 xs : memrel nx ny nz u (mkfstate l r t o sp) m ->
  same_dims u l -> same_dims u r -> same_dims u t ->
  (forall c, (forall k, dir k -> lo k - unit_ d k <= coord k c < hi k + unit_ d k) ->
     vget l c = fst (rec_at rc d (vget u) c) /\ vget r c = snd (rec_at rc d (vget u) c)) ->
  (forall c, (forall k, dir k -> lo k - unit_ d k * (g - rec_ghosts rc + 1) <= coord k c
                                 < hi k + unit_ d k * (g - rec_ghosts rc + 1)) ->
     vget l c = fst (rec_at rc d (vget u) c) /\ vget r c = snd (rec_at rc d (vget u) c)) ->
  for3 (lo 2 - unit_ d 2) (hi 2) (lo 1 - unit_ d 1) (hi 1) (lo 0 - unit_ d 0) (hi 0)
        (acc3 size (flux_body fx nx ny nz d)) (m, []) = Ok (m1, xs) ->
  xs = speeds.
Proof.
  intros HR Dl Dr Dt W Wall H.
  set (lo1 := fun k => lo k - unit_ d k).
  destruct (for3_write_acc (lo1 2) (hi 2) (lo1 1) (hi 1) (lo1 0) (hi 0) (0, 0, 0)
       (fun (w : list (Z * R)) b => w ++ [b])
       (fun x y z (tw : vol V * list (Z * R)) =>
         fs <- flux_at fx d l r x y z;;
         t' <- vstore (fst tw) x y z (vscal (-1) (fst fs));;
         Ok (t', snd tw ++ [(d, snd fs)]))
       (fun c => vscal (-1) (fst (iface fx rc d (vget u) c)))
       (fun c => (d, snd (iface fx rc d (vget u) c))) t [])
      as (t' & Et & _ & _).
  { intros [[x y] z] Hc. cbn [cadd]. rewrite !Z.add_0_r.
    eapply inr_same; [exact Dt|]. apply inr_iff. intros k Hk.
    apply (proj1 (inreg_iff lo1 hi _)) with (k := k) in Hc; auto. pose proof (low k Hk). pose proof (Hne k Hk).
    unfold lo1 in Hc. rewrite unit_if in *. destruct (k =? d); lia. }
  { intros x y z v' w' Hc _ _. cbn [cadd fst snd]. rewrite !Z.add_0_r.
    rewrite (flux_at_spec dims g fx rc Hcomp d u l r lo hi); auto.
    apply (proj1 (inreg_iff lo1 hi _) Hc). }
  rewrite fold_snoc in Et. cbn [app] in Et. change (map _ (box _ _ _ _ _ _)) with speeds in Et. unfold lo1 in Et.
  destruct (for3_sim _ _ _ _ _ _ _ _ _ Et (acc3 size (flux_body fx nx ny nz d))
    (fun tw s' => memrel nx ny nz u (mkfstate l r (fst tw) o sp) (fst s') /\ snd s' = snd tw) (m, [])) as ([m2 xs2] & Hr & _ & Hxs).
  { clear. intros x y z [t w] [m xs] s' (HR & Hw) Hs. cbn [fst snd] in *. unfold acc3. cbn [fst snd].
    destruct (flux_at fx d l r x y z) as [fs| |] eqn:Ef; cbn [bind] in Hs; try discriminate.
    destruct (vstore t x y z _) as [t'| |] eqn:Et; cbn [bind] in Hs; try discriminate.
    injection Hs as <-.
    assert (run size (flux_body fx nx ny nz d x y z) m =
            run size (pstore nx ny nz a_temp x y z (vscal (-1) (fst fs)) (Ret [(d, snd fs)])) m) as Hr.
    { unfold flux_body, flux_at in *. destruct fx as [f|st f].
      - destruct (vload l _ _ _) as [br| |] eqn:Eb; cbn [bind] in Ef; try discriminate.
        destruct (vload r _ _ _) as [bl| |] eqn:Eb2; cbn [bind] in Ef; try discriminate. injection Ef as <-.
        rewrite (run_pload nx ny nz m a_left l _ _ _ br _ (rel_left _ _ _ _ _ _ HR) Eb).
        rewrite (run_pload nx ny nz m a_right r _ _ _ bl _ (rel_right _ _ _ _ _ _ HR) Eb2). reflexivity.
      - destruct (map_res _ _) as [us| |] eqn:Eu; cbn [bind] in Ef; try discriminate. injection Ef as <-.
        rewrite (run_ploads nx ny nz m a_left l (fun j => x + unit_ d 0 * j) (fun j => y + unit_ d 1 * j)
                 (fun j => z + unit_ d 2 * j) _ (rel_left _ _ _ _ _ _ HR) us _ Eu). reflexivity. }
    rewrite Hr.
    destruct (run_pstore nx ny nz m a_temp t t' x y z _ (Ret [(d, snd fs)]) (proj1 (rel_temp _ _ _ _ _ _ HR)) Et) as (Hr2 & Hd & Hv).
    rewrite Hr2. cbn [run bind fst snd]. eexists. split; [reflexivity|]. split; cbn [fst snd].
    - eapply put_temp; eauto.
    - rewrite Hw. reflexivity. }
  { split; [exact HR|reflexivity]. }
  cbn [snd] in Hxs. subst xs2. rewrite H in Hr. injection Hr as _ ->. reflexivity.
Qed.

(** ** Reconstruction on a box *)
Definition rec_box (l1 h1 : ivec) (left right : vol V) : res (vol V * vol V) :=
  for3 (l1 2) (h1 2) (l1 1) (h1 1) (l1 0) (h1 0) (fun x y z lr =>
    us <- map_res (fun j => vload u (x + unit_ d 0 * j) (y + unit_ d 1 * j) (z + unit_ d 2 * j))
                  (zrange (- (rec_ghosts rc - 1)) (rec_ghosts rc));;
    left' <- vstore (fst lr) x y z (fst (rec_fun rc us));;
    right' <- vstore (snd lr) x y z (snd (rec_fun rc us));;
    Ok (left', right')) (left, right).

Definition covers (l1 h1 : ivec) : Prop := forall k, dir k ->
  unit_ d k * (rec_ghosts rc - 1) <= l1 k /\ h1 k <= total u k - unit_ d k * (rec_ghosts rc - 1) /\
  l1 k <= lo k - unit_ d k * (g - rec_ghosts rc + 1) /\ hi k + unit_ d k * (g - rec_ghosts rc + 1) <= h1 k.

Lemma rec_box_spec l1 h1 left right : covers l1 h1 -> same_dims u left -> same_dims u right ->
  exists left' right', rec_box l1 h1 left right = Ok (left', right') /\
    same_dims u left' /\ same_dims u right' /\
    (forall c, (forall k, dir k -> lo k - unit_ d k * (g - rec_ghosts rc + 1) <= coord k c
                                 < hi k + unit_ d k * (g - rec_ghosts rc + 1)) ->
       vget left' c = fst (rec_at rc d (vget u) c) /\ vget right' c = snd (rec_at rc d (vget u) c)).
Proof.
  intros Hk Dl Dr. pose proof (proj1 Hcomp) as Hr0. set (r := rec_ghosts rc) in *.
  assert (Hu0 : forall k, 0 <= unit_ d k * (r - 1)) by (intros k; rewrite unit_if; destruct (k =? d); lia).
  unfold rec_box.
  match goal with |- exists q1 q2, for3 _ _ _ _ _ _ ?B _ = _ /\ _ =>
    destruct (for3_write2 (l1 2) (h1 2) (l1 1) (h1 1) (l1 0) (h1 0) B
      (fun c => fst (rec_at rc d (vget u) c)) (fun c => snd (rec_at rc d (vget u) c)) left right)
      as (l' & r' & Eq & D1 & D2 & W1 & W2) end.
  - eapply same_dims_trans; [apply same_dims_sym; exact Dl|exact Dr].
  - intros c Hc. eapply inr_same; [exact Dl|]. apply inr_iff. intros k Hk'.
    apply (proj1 (inreg_iff l1 h1 c)) with (k := k) in Hc; auto.
    specialize (Hk k Hk'). specialize (Hu0 k). fold r in Hk. lia.
  - intros x y z v' w' Hc.
    rewrite (map_res_ok _ (fun j => vget u (move d j (x, y, z)))).
    + reflexivity.
    + intros j Hj. apply zrange_In in Hj. apply vload_move; auto.
      apply inr_iff. intros k Hk'. rewrite coord_move by auto.
      apply (proj1 (inreg_iff l1 h1 _)) with (k := k) in Hc; auto.
      specialize (Hk k Hk'). fold r in Hk, Hj. rewrite unit_if in Hk.
      destruct (k =? d); lia.
  - exists l', r'. split; [exact Eq|]. split; [sd|]. split; [sd|].
    intros c Hc. assert (Hi : inr u c).
    { apply inr_iff. intros k Hk'. specialize (Hk k Hk'). specialize (Hc k Hk'). specialize (Hu0 k). fold r in Hk. lia. }
    assert (Hb : inbox (l1 2) (h1 2) (l1 1) (h1 1) (l1 0) (h1 0) c = true).
    { apply (inreg_iff l1 h1 c). intros k Hk'. specialize (Hk k Hk'). specialize (Hc k Hk'). lia. }
    rewrite W1, W2 by (eapply inr_same; [|eassumption]; sd). rewrite Hb. auto.
Qed.

Lemma rec_box_sim l1 h1 l r t o sp m l' r' : memrel nx ny nz u (mkfstate l r t o sp) m ->
  rec_box l1 h1 l r = Ok (l', r') ->
  exists m', for3 (l1 2) (h1 2) (l1 1) (h1 1) (l1 0) (h1 0) (acc3 size (recon_body rc nx ny nz d)) (m, []) = Ok (m', []) /\
    memrel nx ny nz u (mkfstate l' r' t o sp) m'.
Proof.
  intros HR H. unfold rec_box in H.
  pose (Q (lr : vol V * vol V) (t' : shared V * list (Z * R)) :=
      memrel nx ny nz u (mkfstate (fst lr) (snd lr) t o sp) (fst t') /\ snd t' = []).
  destruct (for3_sim _ _ _ _ _ _ _ _ _ H (acc3 size (recon_body rc nx ny nz d)) Q (m, [])) as ([m' xs] & Hr & HR').
  - clear. intros x y z [l r] [m xs] s' [HR Hx] Hs. cbn [fst snd] in *. unfold acc3, recon_body. cbn [fst snd].
    destruct (map_res _ _) as [us| |] eqn:Eu in Hs; cbn [bind] in Hs; try discriminate.
    destruct (vstore l x y z _) as [l'| |] eqn:El; cbn [bind] in Hs; try discriminate.
    destruct (vstore r x y z _) as [r'| |] eqn:Er; cbn [bind] in Hs; try discriminate.
    injection Hs as <-.
    rewrite (run_ploads nx ny nz m a_u u (fun j => x + unit_ d 0 * j) (fun j => y + unit_ d 1 * j)
               (fun j => z + unit_ d 2 * j) _ (rel_u _ _ _ _ _ _ HR) us _ Eu).
    destruct (run_pstore nx ny nz m a_left l l' x y z _ (pstore nx ny nz a_right x y z (snd (rec_fun rc us)) (Ret []))
                (proj1 (rel_left _ _ _ _ _ _ HR)) El) as (Hr & Hd & Hv).
    rewrite Hr. pose proof (put_left _ _ _ _ _ _ _ _ _ _ _ _ _ HR Hd Hv) as HR1.
    destruct (run_pstore nx ny nz (put m a_left (index nx ny x y z) (fst (rec_fun rc us))) a_right r r' x y z _ (Ret [])
                (proj1 (rel_right _ _ _ _ _ _ HR1)) Er) as (Hr2 & Hd2 & Hv2).
    rewrite Hr2. cbn [run bind fst snd]. eexists. split; [reflexivity|]. split; cbn [fst snd].
    + eapply put_right; eauto.
    + rewrite Hx. reflexivity.
  - split; auto.
  - destruct HR' as [HR' Hx]. cbn [fst snd] in *. subst xs. exists m'. split; [exact Hr|exact HR'].
Qed.

Lemma refine_rec x y z m r : run size (recon_body rc nx ny nz d x y z) m = Ok r ->
  run size (cuda_rec_body rc E d x y z) m = Ok r.
Proof.
  unfold recon_body, cuda_rec_body, at_, E, total. cbn [Z.eqb Pos.eqb]. clear. intros H.
  assert (forall cs (k1 k2 : list V -> pr) m r, (forall us m r, run size (k1 us) m = Ok r -> run size (k2 us) m = Ok r) ->
    run size (ploads nx ny nz a_u cs k1) m = Ok r ->
    run size (fetches a_u (map (fun c => let '(x, y, z) := c in index nx ny x y z) cs) k2) m = Ok r) as G.
  { induction cs as [|[[x1 y1] z1] cs IH]; cbn [ploads fetches map]; intros k1 k2 m1 r1 Hk H1; [apply Hk; exact H1|].
    apply refine_pload in H1. apply run_fetch_inv in H1. destruct H1 as [Hi H1].
    apply run_fetch_intro; [exact Hi|]. eapply IH; [|exact H1]. intros us; apply Hk. }
  rewrite <- (map_map (fun j => (x + unit_ d 0 * j, y + unit_ d 1 * j, z + unit_ d 2 * j))
                (fun c => let '(x, y, z) := c in index nx ny x y z)).
  eapply G; [|exact H]. cbv beta. intros us m0 r0 H0. unfold pstore in H0.
  destruct (cell_in nx ny nz x y z); [exact H0|discriminate].
Qed.

(** Launches on such boxes. *)
Lemma kernel_covers : rk = CudaKernel ->
  covers (fun k => ghost dims (rec_ghosts rc - 1) k + start k)
         (fun k => ghost dims (rec_ghosts rc - 1) k + start k + (E k - 2 * ghost dims (rec_ghosts rc - 1) k - start k + fin k)).
Proof.
  intros Ek k Hk. pose proof Hrk as HK. unfold kernel_for in HK. rewrite Ek in HK. pose proof (proj1 Hcomp).
  specialize (Hlo k Hk). specialize (Hhi k Hk). specialize (Hreg k Hk). rewrite unit_if. unfold ghost, E in *.
  destruct (Z.eqb_spec k d); destruct (Z.ltb_spec k dims); lia.
Qed.
Lemma eno_covers : rk = CudaEno ->
  covers (fun k => ghost dims (rec_ghosts rc) k - unit_ d k + start k)
         (fun k => ghost dims (rec_ghosts rc) k - unit_ d k + start k +
                   (E k - 2 * (ghost dims (rec_ghosts rc) k - unit_ d k) - start k + fin k)).
Proof.
  intros Ek k Hk. pose proof Hrk as HK. unfold kernel_for in HK. rewrite Ek in HK. pose proof (proj1 Hcomp).
  specialize (Hlo k Hk). specialize (Hhi k Hk). specialize (Hreg k Hk). rewrite unit_if. unfold ghost, E in *.
  destruct (Z.eqb_spec k d); destruct (Z.ltb_spec k dims); lia.
Qed.
Lemma covers_good n l1 : covers l1 (fun k => l1 k + n k) -> good n.
Proof.
  intros H. apply (good_box _ l1 (fun k => l1 k + n k)). intros k Hk. specialize (H k Hk). pose proof (Hne k Hk).
  pose proof (proj1 Hcomp). rewrite unit_if in H. destruct (k =? d); lia.
Qed.

Lemma run_rec l r t o sp m : memrel nx ny nz u (mkfstate l r t o sp) m -> same_dims u l -> same_dims u r ->
  exists l' r' m', run_loops size (cuda_reconstruct dims rk rc E E start fin d) m = Ok (m', []) /\
    memrel nx ny nz u (mkfstate l' r' t o sp) m' /\ same_dims u l' /\ same_dims u r' /\
    (forall c, (forall k, dir k -> lo k - unit_ d k <= coord k c < hi k + unit_ d k) ->
       vget l' c = fst (rec_at rc d (vget u) c) /\ vget r' c = snd (rec_at rc d (vget u) c)) /\
    (forall c, (forall k, dir k -> lo k - unit_ d k * (g - rec_ghosts rc + 1) <= coord k c
                                 < hi k + unit_ d k * (g - rec_ghosts rc + 1)) ->
       vget l' c = fst (rec_at rc d (vget u) c) /\ vget r' c = snd (rec_at rc d (vget u) c)).
Proof.
  intros HR Dl Dr.
  assert (forall n l1, covers l1 (fun k => l1 k + n k) -> 2 <= rec_ghosts rc ->
    exists l' r' m', run_loops size [kernel 512 n l1 (cuda_rec_body rc E d)] m = Ok (m', []) /\
    memrel nx ny nz u (mkfstate l' r' t o sp) m' /\ same_dims u l' /\ same_dims u r' /\
    (forall c, (forall k, dir k -> lo k - unit_ d k <= coord k c < hi k + unit_ d k) ->
       vget l' c = fst (rec_at rc d (vget u) c) /\ vget r' c = snd (rec_at rc d (vget u) c)) /\
    (forall c, (forall k, dir k -> lo k - unit_ d k * (g - rec_ghosts rc + 1) <= coord k c
                                 < hi k + unit_ d k * (g - rec_ghosts rc + 1)) ->
       vget l' c = fst (rec_at rc d (vget u) c) /\ vget r' c = snd (rec_at rc d (vget u) c))) as K.
  { intros n l1 Hc H2. destruct (rec_box_spec _ _ l r Hc Dl Dr) as (l' & r' & Eb & D1 & D2 & W).
    destruct (rec_box_sim _ _ _ _ _ _ _ _ _ _ HR Eb) as (m' & Hr & HR').
    exists l', r', m'. split; [|split; [exact HR'|split; [exact D1|split; [exact D2|split; [|exact W]]]]].
    2:{ intros c Hc'. apply W. intros k Hk. specialize (Hc' k Hk). pose proof (proj1 Hcomp).
        rewrite unit_if in *. destruct (k =? d); lia. }
    unfold M_Omp.pr. rewrite run_loops_cons. rewrite run_kernel by (try lia; exact (covers_good _ _ Hc)).
    erewrite for3_refine; [|intros x y z m0 r0; apply refine_rec|exact Hr]. reflexivity. }
  unfold cuda_reconstruct. pose proof Hrk as HK. unfold kernel_for in HK. destruct rk eqn:Ek.
  - clear K. assert (Ev : E 0 * E 1 * E 2 = vsize u) by (unfold E, total, vsize; reflexivity). rewrite Ev.
    destruct (run_memcpy (X := Z * R) size a_left a_u (vsize u) m) as (m1 & Hr1 & Hm1);
      [discriminate|unfold area, vsize; lia|unfold area, vsize; lia|].
    destruct (run_memcpy (X := Z * R) size a_right a_u (vsize u) m1) as (m2 & Hr2 & Hm2);
      [discriminate|unfold area, vsize; lia|unfold area, vsize; lia|].
    pose (new := fun v : vol V => mkvol (vnx v) (vny v) (vnz v)
                    (fun i => if (0 <=? i) && (i <? vsize u) then vdat u i else vdat v i)).
    exists (new l), (new r), m2.
    assert (forall v, same_dims u v -> same_dims u (new v)) as Dn by (intros v Hv; exact Hv).
    assert (forall v c, same_dims u v -> inr u c -> vget (new v) c = vget u c) as Wn.
    { intros v [[x y] z] (V1 & V2 & V3) Hi. unfold vget, new. cbn [vdat vnx vny]. rewrite <- V1, <- V2.
      unfold inr in Hi. pose proof (L_Foreach.index_range nx ny nz x y z). unfold vsize.
      destruct (Z.leb_spec 0 (index nx ny x y z)), (Z.ltb_spec (index nx ny x y z) (nx * ny * nz)); cbn [andb]; try reflexivity; lia. }
    assert (forall c, fst (rec_at rc d (vget u) c) = vget u c /\ snd (rec_at rc d (vget u) c) = vget u c) as Wr.
    { intros c. rewrite HK. unfold rec_at, no_reconstruction. cbn [rec_ghosts rec_fun].
      change (zrange (- (1 - 1)) 1) with [0]. cbn [map fst snd]. rewrite move_0. auto. }
    split; [|split; [|split; [auto|split; [auto|]]]].
    + unfold M_Omp.pr. rewrite !run_loops_cons, Hr1. cbn [bind fst snd]. rewrite run_loops_cons, Hr2. reflexivity.
    + pose proof HR as (R0 & R1 & R2 & R3 & R4 & RE). unfold memrel. cbn [f_left f_right f_temp f_out].
      do 5 (split; [assumption|]). intros a i. rewrite Hm2, !Hm1, !RE. unfold flux_mem. cbn [f_left f_right f_temp f_out].
      unfold new. cbn [vdat]. unfold a_left, a_right, a_u, a_temp, a_out.
      destruct (Z.eqb_spec a 2) as [->|]; cbn [andb Z.eqb Pos.eqb].
      * reflexivity.
      * destruct (Z.eqb_spec a 1) as [->|]; cbn [andb Z.eqb Pos.eqb]; reflexivity.
    + split.
      * intros c Hc. destruct (Wr c) as [-> ->]. assert (Hi : inr u c).
        { apply inr_iff. intros k Hk. specialize (Hc k Hk). pose proof (low k Hk). lia. }
        rewrite !Wn by assumption. auto.
      * intros c Hc. destruct (Wr c) as [-> ->]. assert (Hi : inr u c).
        { apply inr_iff. intros k Hk. specialize (Hc k Hk). pose proof (Hreg k Hk).
          pose proof (low k Hk). pose proof (proj1 Hcomp). rewrite HK in *. cbn [rec_ghosts no_reconstruction] in *.
          rewrite unit_if in *. unfold ghost in *.
          destruct (Z.eqb_spec k d); [|lia]. destruct (Z.ltb_spec k dims); lia. }
        rewrite !Wn by assumption. auto.
  - apply K; [apply kernel_covers; exact Ek|exact HK].
  - apply K; [apply eno_covers; exact Ek|exact HK].
Qed.

(** ** Independence *)
Lemma accs_fetches a cs : forall (k : list V -> pr) w b j, accs (fetches a cs k) w b j ->
  (w = false /\ b = a) \/ exists vs, accs (k vs) w b j.
Proof.
  induction cs as [|i cs IH]; cbn; intros k w b j H; [right; eauto|].
  inversion H; subst; [auto|].
  match goal with K : accs (fetches _ _ _) _ _ _ |- _ => destruct (IH _ _ _ _ K) as [?|(vs & ?)] end; [auto|right; eauto].
Qed.
Ltac acc1 := repeat match goal with
  | H : accs (Fetch _ _ _) _ _ _ |- _ => inversion H; subst; clear H
  | H : accs (Store _ _ _ _) _ _ _ |- _ => inversion H; subst; clear H
  | H : accs (fetches _ _ _) _ _ _ |- _ => apply accs_fetches in H; destruct H as [(? & ?)|(? & H)]; subst
  | H : accs (Ret _) _ _ _ |- _ => inversion H
  end.

Lemma flux_independent : independent (cuda_flux dims g fx E start fin d).
Proof.
  pose proof (low 0 d0). pose proof (low 1 d1).
  apply (own_independent 128 _ _ E (fun a => a =? a_temp) 0 0 0); [exact flux_good| | | | |].
  { intros x y z w a i H1. rewrite !Z.add_0_r. cbv zeta in H1. destruct fx; acc1; split; intros K; auto; discriminate. }
  all: pose proof (Hlo 0 d0); pose proof (Hhi 0 d0); pose proof (Hlo 1 d1); pose proof (Hhi 1 d1);
    unfold E; rewrite ?unit_if in *; destruct (0 =? d), (1 =? d); lia.
Qed.
Lemma combine_independent : independent (cuda_combine (V := V) dims g E E start fin d).
Proof.
  pose proof (low 0 d0). pose proof (low 1 d1).
  apply (own_independent 128 _ _ E (fun a => a =? a_out) (unit_ d 0) (unit_ d 1) (unit_ d 2)); [exact zero_good| | | | |].
  { intros x y z w a i H1. cbv zeta in H1. acc1; split; intros K; auto; discriminate. }
  all: pose proof (Hlo 0 d0); pose proof (Hhi 0 d0); pose proof (Hlo 1 d1); pose proof (Hhi 1 d1);
    unfold E; rewrite ?unit_if in *; destruct (0 =? d), (1 =? d); lia.
Qed.
Lemma rec_independent : Forall independent (cuda_reconstruct dims rk rc E E start fin d).
Proof.
  assert (forall n l1, covers l1 (fun k => l1 k + n k) -> independent (kernel 512 n l1 (cuda_rec_body rc E d))) as K.
  { intros n l1 Hc. pose proof (Hc 0 d0) as C0. pose proof (Hc 1 d1) as C1. pose proof (proj1 Hcomp).
    apply (own_independent 512 _ _ E (fun a => (a =? a_left) || (a =? a_right)) 0 0 0); [exact (covers_good _ _ Hc)| | | | |].
    { intros x y z w a i H1. rewrite !Z.add_0_r. unfold cuda_rec_body in H1. acc1; split; intros K; auto; discriminate. }
    all: unfold E; rewrite ?unit_if in *; destruct (0 =? d), (1 =? d); lia. }
  unfold cuda_reconstruct. destruct rk eqn:Ek.
  - repeat constructor; apply memcpy_independent; discriminate.
  - repeat constructor. apply K. apply kernel_covers. exact Ek.
  - repeat constructor. apply K. apply eno_covers. exact Ek.
Qed.
End Dir.

Lemma zero_independent : independent (cuda_zero (V := V) dims g E start fin).
Proof.
  pose proof (Hreg 0 d0). pose proof (Hreg 1 d1). pose proof (ng0 0). pose proof (ng0 1).
  apply (own_independent 128 _ _ E (fun a => a =? a_out) 0 0 0); [exact zero_good| | | | |].
  { intros x y z w a i H3. rewrite !Z.add_0_r. inversion H3; subst; [auto|]. match goal with K : accs (Ret _) _ _ _ |- _ => inversion K end. }
  all: pose proof (Hlo 0 d0); pose proof (Hhi 0 d0); pose proof (Hlo 1 d1); pose proof (Hhi 1 d1); unfold E; lia.
Qed.

Lemma cuda_independent : Forall independent (cuda_compute_flux dims g fx rk rc E E start fin).
Proof.
  unfold cuda_compute_flux. constructor; [exact zero_independent|].
  rewrite Forall_forall. intros ps H. apply in_flat_map in H. destruct H as (d & Hd & H).
  apply zrange_In in Hd. assert (dir d) by (unfold dir; lia). assert (d < dims) by lia.
  apply in_app_iff in H. destruct H as [H|[<-|[<-|[]]]].
  - pose proof (rec_independent d ltac:(assumption)) as Hr. rewrite Forall_forall in Hr. apply Hr; assumption.
  - apply flux_independent; assumption.
  - apply combine_independent; assumption.
Qed.

(** ** The whole right hand side *)
Lemma cuda_compute s m : memrel nx ny nz u s m -> st_dims u s ->
  exists s' m', run_loops size (cuda_compute_flux dims g fx rk rc E E start fin) m =
      Ok (m', flat_map speeds (zrange 0 dims)) /\
    memrel nx ny nz u s' m' /\ st_dims u s' /\
    forall c, inr u c -> vget (f_out s') c =
       if inreg lo hi c then rhs dims fx rc (vget u) c else vget (f_out s) c.
Proof.
  intros HR (Dl & Dr & Dt & Do). destruct s as [l r t o sp]. cbn [f_left f_right f_temp f_out] in *.
  destruct (make_zero_spec dims g fx rc Hcomp u o start fin lo hi Hlo Hhi Hreg Do) as (o0 & E0 & Do0 & W0).
  destruct (run_zero _ _ _ _ _ _ _ HR E0) as (m0 & Hr0 & HR0).
  unfold cuda_compute_flux. unfold M_Omp.pr. rewrite run_loops_cons, Hr0. cbn [bind fst snd app].
  assert (forall k, 0 <= k -> k <= dims -> exists s' m',
    run_loops size (flat_map (fun d => cuda_reconstruct dims rk rc E E start fin d ++
        [cuda_flux dims g fx E start fin d; cuda_combine dims g E E start fin d]) (zrange 0 k)) m0 =
      Ok (m', flat_map speeds (zrange 0 k)) /\
    memrel nx ny nz u s' m' /\ st_dims u s' /\
    forall c, inr u c -> vget (f_out s') c =
       if inreg lo hi c then fold_left (fun a d => vadd a (contrib fx rc d (vget u) c)) (zrange 0 k) vzero
       else vget o c) as K.
  { intros k Hk0. pattern k. revert k Hk0. apply natlike_ind.
    - intros _. exists (mkfstate l r t o0 sp), m0. split; [reflexivity|]. split; [exact HR0|]. split; [unfold st_dims; cbn [f_left f_right f_temp f_out]; auto|].
      intros c Hc. cbn [f_out]. rewrite (W0 c Hc). reflexivity.
    - intros k Hk IH Hk1. destruct IH as ([l1 r1 t1 o1 sp1] & m1 & Hr1 & HR1 & (Dl1 & Dr1 & Dt1 & Do1) & W1); [lia|].
      cbn [f_left f_right f_temp f_out] in *.
      assert (Hd : dir k) by (unfold dir; lia). assert (Hlt : k < dims) by lia.
      destruct (run_rec k Hd Hlt _ _ _ _ _ _ HR1 Dl1 Dr1) as (l2 & r2 & m2 & Hr2 & HR2 & Dl2 & Dr2 & W2 & Wall2).
      destruct (net_flux_spec dims g fx rc Hcomp k u l2 r2 o1 t1 start fin lo hi) as (o3 & t3 & En & Do3 & Dt3 & W3); auto.
      destruct (run_flux k Hlt _ _ _ _ _ _ _ _ _ HR2 En) as (m3 & xs & Hr3 & HR3 & _ & _ & (m4 & Hl)).
      assert (xs = speeds k) as -> by (exact (flux_list k Hd Hlt l2 r2 t1 o1 sp1 m2 m4 xs HR2 Dl2 Dr2 Dt1 W2 Wall2 Hl)).
      exists (mkfstate l2 r2 t3 o3 sp1), m3. split; [|split; [exact HR3|split; [unfold st_dims; cbn [f_left f_right f_temp f_out]; auto|]]].
      + unfold Z.succ. rewrite zrange_snoc, !flat_map_app by lia. cbn [flat_map]. rewrite !app_nil_r.
        unfold M_Omp.pr in *. rewrite run_loops_app, Hr1. cbn [bind fst snd].
        rewrite run_loops_app, Hr2. cbn [bind fst snd]. rewrite Hr3. reflexivity.
      + intros c Hc. cbn [f_out]. rewrite (W3 c Hc), (W1 c Hc). destruct (inreg lo hi c); [|reflexivity].
        unfold Z.succ. rewrite zrange_snoc, fold_left_app by lia. reflexivity. }
  destruct (K dims ltac:(lia) ltac:(lia)) as (s' & m' & Hr & HR' & D' & W'). unfold M_Omp.pr in Hr. rewrite Hr.
  cbn [bind fst snd]. exists s', m'. split; [reflexivity|]. split; [exact HR'|]. split; [exact D'|]. exact W'.
Qed.
End K.
