(** C73: memory areas on a GPU. *)
From Coq Require Import ZArith Reals List Bool Lia Lra FunctionalExtensionality.
From Verif Require Import M_Base L_Base M_Foreach L_Foreach M_Boundary M_Sim M_Flux L_Flux S_Boundary S_Sum L_Sum M_Memory S_Memory L_Memory T_Memory T_Variation
  M_Omp L_Omp L_OmpFlux T_Omp M_Cuda L_Cuda M_CudaCell L_CudaCell M_CudaMem.
Import ListNotations.
Open Scope Z_scope.

(** * Element-wise operations *)
Lemma run_loads (size : Z -> Z) i (m : shared R) : forall ws k,
  (forall w, In w ws -> 0 <= i < size w) ->
  run (X := unit) size (loads_at ws i k) m = run size (k (map (fun w => m w i) ws)) m.
Proof.
  induction ws as [|b ws IH]; intros k H; [reflexivity|]. cbn [loads_at run map]. unfold inside.
  destruct (H b (or_introl eq_refl)) as [L1 L2].
  rewrite (proj2 (Z.leb_le 0 i)), (proj2 (Z.ltb_lt i (size b))) by lia. cbn [andb].
  rewrite IH by (intros; apply H; cbn; auto). reflexivity.
Qed.

Theorem C73_elementwise : forall (size : Z -> Z) ws f (m : shared R), 0 <= size 0 -> (forall w, In w ws -> size w = size 0) ->
  forall r, outcomes size (cuda_elementwise (size 0) ws f) m r <->
    r = Ok (fun a i => if (a =? 0) && (0 <=? i) && (i <? size 0) then f (m 0 i) (map (fun w => m w i) ws) else m a i, []).
Proof.
  intros size ws f m Hn Hs.
  set (body := fun i => Fetch (X := unit) 0 i (fun a => loads_at ws i (fun bs => Store 0 i (f a bs) (Ret [])))).
  assert (Forall independent (cuda_elementwise (size 0) ws f)) as Hi.
  { constructor; [|constructor]. apply linear_independent. intros i j _ _ Hne w w' a q H1 H2. exfalso. apply Hne.
    assert (forall i w a q, accs (body i) w a q -> q = i) as L.
    { clear. intros i w a q H. inversion H; subst; auto.
      match goal with G : accs (loads_at _ _ _) _ _ _ |- _ => apply accs_loads_at in G; destruct G as [->|(l & G)]; auto; inversion G; subst; auto end.
      match goal with G : accs (Ret _) _ _ _ |- _ => inversion G end. }
    rewrite <- (L _ _ _ _ H1). exact (L _ _ _ _ H2). }
  match goal with |- context [_ = Ok ?x] => assert (run_loops size (cuda_elementwise (size 0) ws f) m = Ok x) as Hr end.
  { unfold cuda_elementwise. rewrite run_loops_cons, run_linear by lia. fold body.
    assert (K : forall l, NoDup l -> (forall i, In i l -> 0 <= i < size 0) -> forall m1, 
      (forall i, In i l -> forall a, m1 a i = m a i) ->
      fold_res (acc size body) l (m1, []) =
      Ok (fun a i => if (a =? 0) && (if in_dec Z.eq_dec i l then true else false) then f (m 0 i) (map (fun w => m w i) ws) else m1 a i, [])).
    { intros l ND. induction ND as [|i l Hni ND IH]; intros Hl m1 Hm.
      - cbn [fold_res]. apply f_equal. apply f_equal2; [|reflexivity]. extensionality a. extensionality i. rewrite andb_false_r. reflexivity.
      - cbn [fold_res]. unfold acc at 1, body at 1. cbn [fst snd run]. unfold inside at 1. pose proof (Hl i (or_introl eq_refl)) as Bi.
        rewrite (proj2 (Z.leb_le 0 i)), (proj2 (Z.ltb_lt i (size 0))) by lia. cbn [andb].
        rewrite run_loads by (intros w Hw; rewrite (Hs w Hw); lia). cbn [run]. unfold inside at 1.
        rewrite (proj2 (Z.leb_le 0 i)), (proj2 (Z.ltb_lt i (size 0))) by lia. cbn [andb bind fst snd app].
        rewrite IH; [|intros; apply Hl; cbn; auto|].
        + apply f_equal. apply f_equal2; [|reflexivity]. extensionality a. extensionality j. unfold put.
          destruct (Z.eqb_spec a 0) as [->|Na]; cbn [andb]; [|reflexivity].
          destruct (in_dec Z.eq_dec j l) as [J|J], (in_dec Z.eq_dec j (i :: l)) as [J'|J'].
          * reflexivity.
          * exfalso; apply J'; cbn; auto.
          * destruct J' as [->|J']; [|contradiction]. rewrite Z.eqb_refl. rewrite (Hm j (or_introl eq_refl) 0).
            f_equal. apply map_ext. intros w. apply Hm. cbn; auto.
          * destruct (Z.eqb_spec j i) as [->|]; [exfalso; apply J'; cbn; auto|reflexivity].
        + intros j Hj a. unfold put. destruct (Z.eqb_spec j i) as [->|]; [contradiction|]. rewrite andb_false_r. apply Hm. cbn; auto. }
    rewrite (K _ (zrange_NoDup 0 (size 0))); [|intros i Hi'; apply zrange_In in Hi'; lia|auto]. cbn.
    apply f_equal. apply f_equal2; [|reflexivity]. extensionality a. extensionality i.
    destruct (in_dec Z.eq_dec i (zrange 0 (size 0))) as [I|I]; rewrite zrange_In in I.
    - rewrite (proj2 (Z.leb_le 0 i)), (proj2 (Z.ltb_lt i (size 0))) by lia. rewrite !andb_true_r. reflexivity.
    - rewrite andb_false_r, <- andb_assoc. destruct (Z.leb_spec 0 i), (Z.ltb_spec i (size 0)); try lia; rewrite andb_false_r; reflexivity. }
  destruct (outcomes_unique size _ _ _ Hi Hr) as [O U]. intros r. split; [apply U|intros ->; exact O].
Qed.

(** The kernel gives what the host gives: the host operation [r] succeeds, the call
    on the GPU is accepted, has an outcome, and in every outcome area 0 holds the
    result of the host and the other areas are as before. *)
Definition agrees (vs : Z -> vol R) (ws : list Z) (f : R -> list R -> R) (r : res (vol R)) : Prop :=
  exists v' ps, r = Ok v' /\ cuda_memory_op (fun a => vsize (vs a)) ws f = Some ps /\
    (exists q, outcomes (fun a => vsize (vs a)) ps (fun a => vdat (vs a)) q) /\
    forall q, outcomes (fun a => vsize (vs a)) ps (fun a => vdat (vs a)) q ->
      exists m', q = Ok (m', []) /\ (forall i, 0 <= i < elements (vs 0) -> m' 0 i = vdat v' i) /\
        forall a, a <> 0 -> m' a = vdat (vs a).

Lemma agrees_from vs ws f r g : 0 <= elements (vs 0) -> (forall w, In w ws -> elements (vs w) = elements (vs 0)) ->
  acts_on_all (vs 0) r g ->
  (forall i, 0 <= i < elements (vs 0) -> f (vdat (vs 0) i) (map (fun w => vdat (vs w) i) ws) = g i) ->
  agrees vs ws f r.
Proof.
  intros Hn Hs (v' & -> & _ & _ & _ & W) Hf.
  exists v', (cuda_elementwise (vsize (vs 0)) ws f). split; [reflexivity|]. split.
  { unfold cuda_memory_op. rewrite (proj2 (forallb_forall _ ws)); [reflexivity|]. intros w Hw. apply Z.eqb_eq. apply Hs. exact Hw. }
  pose proof (C73_elementwise (fun a => vsize (vs a)) ws f (fun a => vdat (vs a)) Hn Hs) as E. cbv beta in E.
  split; [eexists; apply E; reflexivity|]. intros q Hq. apply E in Hq. subst. eexists. split; [reflexivity|]. split.
  - intros i Hi. cbn [Z.eqb andb]. change (vsize (vs 0)) with (elements (vs 0)).
    rewrite (proj2 (Z.leb_le 0 i)), (proj2 (Z.ltb_lt i (elements (vs 0)))) by lia. cbn [andb]. rewrite W by exact Hi. apply Hf. exact Hi.
  - intros a Ha. extensionality i. apply Z.eqb_neq in Ha. rewrite Ha. reflexivity.
Qed.

(** All operations; the operands may be the area itself. *)
Theorem C73_memory_operations : forall (vs : Z -> vol R) (b b3 b4 b5 : Z) (c c1 c2 c3 c4 c5 : R) (p : nat),
  let v := vs 0 in let w := vs b in
  0 <= elements v < 2 ^ 31 ->
  (forall a, a = b \/ a = b3 \/ a = b4 \/ a = b5 -> elements (vs a) = elements v) ->
  agrees vs [b] (fun x l => x + hd 0 l)%R (mem_add v w) /\
  agrees vs [b] (fun x l => x - hd 0 l)%R (mem_sub v w) /\
  agrees vs [b] (fun x l => x * hd 0 l)%R (mem_mul v w) /\
  agrees vs [b] (fun x l => x / hd 0 l)%R (mem_div v w) /\
  agrees vs [] (fun x _ => x + c)%R (mem_adds v c) /\
  agrees vs [] (fun x _ => x - c)%R (mem_subs v c) /\
  agrees vs [] (fun x _ => x * c)%R (mem_muls v c) /\
  agrees vs [] (fun x _ => x / c)%R (mem_divs v c) /\
  agrees vs [b; b3; b4; b5]
    (fun x l => c1 * x + c2 * nth 0 l 0 + c3 * nth 1 l 0 + c4 * nth 2 l 0 + c5 * nth 3 l 0)%R
    (mem_lincomb v c1 c2 w c3 (vs b3) c4 (vs b4) c5 (vs b5)) /\
  agrees vs [b] (fun x l => x + hd 0 l ^ p)%R (mem_addpower v w (Z.of_nat p)) /\
  agrees vs [b] (fun x l => x + c * hd 0 l ^ p)%R (mem_addpow v w (Z.of_nat p) c) /\
  agrees vs [b] (fun x l => x - hd 0 l ^ p)%R (mem_subpower v w (Z.of_nat p)).
Proof.
  intros vs b b3 b4 b5 c c1 c2 c3 c4 c5 p v w Hn Hs.
  assert (Hb : elements w = elements v) by (apply Hs; auto).
  assert (Hb3 : elements (vs b3) = elements v) by (apply Hs; auto).
  assert (Hb4 : elements (vs b4) = elements v) by (apply Hs; auto).
  assert (Hb5 : elements (vs b5) = elements v) by (apply Hs; auto).
  destruct (C48_scalar_ops_partial v c Hn) as (S1 & S2 & S3 & S4 & _).
  destruct (C48_memory_ops_partial v w Hn Hb) as (M1 & M2 & M3 & M4).
  destruct (C48_size_t_ops v w p c Hb) as (P1 & P2 & P3 & _).
  pose proof (C48_linear_combination v c1 c2 w c3 (vs b3) c4 (vs b4) c5 (vs b5) Hb Hb3 Hb4 Hb5) as L.
  assert (forall q, In q [b] -> elements (vs q) = elements v) as H1 by (intros q [<-|[]]; exact Hb).
  assert (forall q, In q [] -> elements (vs q) = elements v) as H0 by (intros q []).
  assert (forall q, In q [b; b3; b4; b5] -> elements (vs q) = elements v) as H4.
  { intros q [<-|[<-|[<-|[<-|[]]]]]; assumption. }
  repeat match goal with |- _ /\ _ => split end;
    (eapply agrees_from; [unfold v in *; lia|assumption|eassumption|intros i _; reflexivity]).
Qed.

(** Areas of different sizes are refused by every operation, += included (on the
    host it reads behind the end: C48_add_short_refuted). *)
Theorem C73_size_mismatch : forall size ws f, (exists w, In w ws /\ size w <> size 0) <-> cuda_memory_op size ws f = None.
Proof.
  intros size ws f. unfold cuda_memory_op. destruct (forallb _ ws) eqn:E.
  - rewrite forallb_forall in E. split; [|discriminate]. intros (w & Hw & H). apply E in Hw. apply Z.eqb_eq in Hw. contradiction.
  - split; [reflexivity|]. intros _. induction ws as [|w ws IH]; [discriminate|]. cbn [forallb] in E.
    destruct (Z.eqb_spec (size w) (size 0)) as [E1|E1].
    + destruct (IH E) as (q & Hq & H). exists q. cbn; auto.
    + exists w. cbn; auto.
Qed.

(** * Total variation *)

(** The sum over a box. *)
Lemma sum_box lo hi g : fold_right Rplus 0%R (map g (box (lo 2) (hi 2) (lo 1) (hi 1) (lo 0) (hi 0))) = sum3 lo hi g.
Proof.
  pose proof (for3_acc lo hi (fun x y z a => Ok (a + g (x, y, z))%R) g 0%R (fun _ _ _ _ _ _ _ => eq_refl)) as H.
  rewrite for3_box in H.
  assert (K : forall l s, fold_res (fun c a => let '(x, y, z) := c in Ok (a + g (x, y, z))%R) l s = Ok (s + fold_right Rplus 0 (map g l))%R).
  { induction l as [|[[x y] z] l IH]; intros s; cbn [fold_res map fold_right]; [f_equal; ring|]. cbn [bind]. rewrite IH. f_equal. ring. }
  erewrite fold_res_ext in H; [rewrite K in H|intros [[x y] z] s _; reflexivity].
  injection H as H. lra.
Qed.

Lemma sum_unique (v : vol R) n lo (body : Z -> Z -> Z -> prog R R) g hi : good n ->
  (forall k, dir k -> lo k + n k = hi k) ->
  (forall x y z w a i, accs (body x y z) w a i -> w = false) ->
  (forall x y z, lo 0 <= x < hi 0 -> lo 1 <= y < hi 1 -> lo 2 <= z < hi 2 ->
     run (fun _ => vsize v) (body x y z) (fun _ => vdat v) = Ok (fun _ => vdat v, [g (x, y, z)])) ->
  (forall r, outcomes (fun _ => vsize v) [kernel 1024 n lo body] (fun _ => vdat v) r -> exists x, r = Ok x) /\
  forall w, cuda_sum v [kernel 1024 n lo body] w <-> w = sum3 lo hi g.
Proof.
  intros Hn Hh Hw Hr.
  pose proof (Hh 0 ltac:(unfold dir; auto)) as E0. pose proof (Hh 1 ltac:(unfold dir; auto)) as E1. pose proof (Hh 2 ltac:(unfold dir; auto)) as E2.
  pose proof (kernel_readers (fun _ => vsize v) 1024 n lo body g (fun _ => vdat v) ltac:(lia) Hn Hw) as K.
  assert (B : box_of n lo = box (lo 2) (hi 2) (lo 1) (hi 1) (lo 0) (hi 0)) by (unfold box_of; rewrite E0, E1, E2; reflexivity).
  rewrite B in K. specialize (K ltac:(intros x y z Hc; apply box_In in Hc; apply Hr; lia)).
  split; [intros r H; apply K in H; eauto|]. intros w. split.
  - intros (m & xs & O & Rd). apply K in O. injection O as -> ->. apply reduced_plus in Rd. cbn [fold_right] in Rd.
    rewrite sum_box in Rd. lra.
  - intros ->. exists (fun _ => vdat v), (map g (box (lo 2) (hi 2) (lo 1) (hi 1) (lo 0) (hi 0))). split; [apply K; reflexivity|].
    destruct (reduced_exists Rplus (map g (box (lo 2) (hi 2) (lo 1) (hi 1) (lo 0) (hi 0))) 0%R) as (w & Rd).
    pose proof (reduced_plus _ _ Rd) as E. cbn [fold_right] in E. rewrite sum_box in E. replace (sum3 lo hi g) with w by lra. exact Rd.
Qed.

Ltac readers := intros; repeat match goal with H : accs _ _ _ _ |- _ => inversion H; subst; clear H end; reflexivity.

Lemma flat_ok (v : vol R) x y : vnz v = 1 -> vnx v * vny v < 2 ^ 31 -> 0 <= x < vnx v -> 0 <= y < vny v ->
  0 <= y * vnx v + x < vnx v * vny v.
Proof.
  intros Hz Hs Hx Hy. assert (y * vnx v <= (vny v - 1) * vnx v) by (apply Z.mul_le_mono_nonneg_r; lia).
  assert (0 <= y * vnx v) by (apply Z.mul_nonneg_nonneg; lia). nia.
Qed.
Lemma inside_ok (v : vol R) i : vnz v = 1 -> 0 <= i < vnx v * vny v -> inside (fun _ => vsize v) 0 i = true.
Proof.
  intros Hz Hi. unfold inside, vsize. rewrite Hz, Z.mul_1_r. apply andb_true_intro. split; [apply Z.leb_le|apply Z.ltb_lt]; lia.
Qed.

(** Planes: the sum of C47_plane_partial, as on the host. *)
Theorem C73_variation_plane_partial : forall v p a b a' b',
  1 < vny v -> vnz v = 1 -> vnx v * vny v < 2 ^ 31 ->
  0 <= a -> a + 1 < b -> b <= vnx v -> 0 <= a' -> a' + 1 < b' -> b' <= vny v ->
  exists ps, cuda_variation v (Z.of_nat p) (a, a', 0) (b, b', 1) = Some ps /\
    (forall r, outcomes (fun _ => vsize v) ps (fun _ => vdat v) r -> exists x, r = Ok x) /\
    forall w, cuda_sum v ps w <-> total_variation v (Z.of_nat p) (a, a', 0) (b, b', 1) = Ok w.
Proof.
  intros v p a b a' b' Hy Hz Hs Ha Hab Hb Ha' Hab' Hb'.
  rewrite (C47_plane_partial v p a b a' b') by lia.
  unfold cuda_variation. rewrite Hz, (proj2 (Z.ltb_lt 1 (vny v))) by lia. cbn [Z.ltb Z.compare Pos.compare Pos.compare_cont b2z].
  eexists. split; [reflexivity|].
  set (lo := triple (a + 1) (a' + 1) (0 + 0)). set (hi := triple b b' 1).
  match goal with |- context [kernel 1024 ?n lo ?bd] => destruct (sum_unique v n lo bd (fun c => let '(x, y, z) := c in
     (sqrt ((vget v (x, y, z) - vget v (x, (y - 1)%Z, z)) ^ 2 +
            (vget v (x, y, z) - vget v ((x - 1)%Z, y, z)) ^ 2) ^ p)%R) hi) as (G1 & G2) end.
  - unfold good, lo, hi, triple. cbn [Z.eqb Pos.eqb].
    assert ((b - (a + 1)) * (b' - (a' + 1)) <= vnx v * vny v) by (apply Z.mul_le_mono_nonneg; lia).
    repeat split; try lia.
  - intros k _. lia.
  - readers.
  - intros x y z Rx Ry Rz. unfold lo, hi, triple in Rx, Ry, Rz. cbn [Z.eqb Pos.eqb] in Rx, Ry, Rz. assert (z = 0) by lia. subst z.
    assert (B1 := flat_ok v x y Hz Hs ltac:(lia) ltac:(lia)). assert (B2 := flat_ok v x (y - 1) Hz Hs ltac:(lia) ltac:(lia)).
    assert (B3 := flat_ok v (x - 1) y Hz Hs ltac:(lia) ltac:(lia)).
    rewrite (proj2 (Z.ltb_lt 0 (vny v))) by lia. cbv zeta.
    assert (vny v < two64).
    { assert (1 * vny v <= vnx v * vny v) by (apply Z.mul_le_mono_nonneg_r; lia). unfold two64. lia. }
    rewrite (wrap64_small (y - 1)) by lia. rewrite !Z.mul_0_l. rewrite !Z.add_0_l.
    rewrite !wrap64_small by (unfold two64; lia). cbn [run]. rewrite !(inside_ok v) by (auto; lia). cbn [run].
    rewrite cpow_nat. unfold cpow. change 2 with (Z.of_nat 2). rewrite <- !pow_powerRZ. unfold vget, index.
    rewrite !Z.mul_0_l, !Z.add_0_l. apply f_equal. apply f_equal2; [reflexivity|]. apply f_equal2; [|reflexivity].
    f_equal. f_equal. ring.
  - split; [exact G1|]. intros w. rewrite G2. unfold gradient_sum. split.
    + intros ->. apply f_equal. reflexivity.
    + intros H. injection H as <-. reflexivity.
Qed.

(** With a direction: the same as on the host, where [direction] is one of the
    directions of the area. *)
Theorem C73_variation_direction_partial : forall v d p start stop,
  vnz v = 1 -> vnx v * vny v < 2 ^ 31 -> d = 0 \/ d = 1 ->
  (forall k, dir k -> 0 <= comp start k /\ comp start k + b2z (k =? d) < comp stop k /\ comp stop k <= comp (vnx v, vny v, vnz v) k) ->
  exists ps, cuda_variation_dir v d (Z.of_nat p) start stop = Some ps /\
    (forall r, outcomes (fun _ => vsize v) ps (fun _ => vdat v) r -> exists x, r = Ok x) /\
    forall w, cuda_sum v ps w <-> total_variation_dir v d (Z.of_nat p) start stop = Ok w.
Proof.
  intros v d p [[sx sy] sz] [[ex ey] ez] Hz Hs Hd Hc.
  pose proof (Hc 0 ltac:(unfold dir; auto)) as Cx. pose proof (Hc 1 ltac:(unfold dir; auto)) as Cy.
  pose proof (Hc 2 ltac:(unfold dir; auto)) as Cz. rewrite Hz in Cx, Cy, Cz.
  assert (Fx : 0 <= sx /\ sx + b2z (d =? 0) < ex /\ ex <= vnx v) by (destruct Hd as [->| ->]; exact Cx).
  assert (Fy : 0 <= sy /\ sy + b2z (d =? 1) < ey /\ ey <= vny v) by (destruct Hd as [->| ->]; exact Cy).
  assert (Fz : 0 <= sz /\ sz + 0 < ez /\ ez <= 1) by (destruct Hd as [->| ->]; exact Cz).
  clear Cx Cy Cz.
  rewrite (C47_directional v d p) by
    (solve [unfold dir; lia | destruct (1 <? vny v); destruct (1 <? vnz v); cbn; lia
           | intros k Hk; destruct (Hc k Hk) as (? & ? & ?); unfold b2z in *; destruct (k =? d); lia]).
  unfold cuda_variation_dir. rewrite Hz. cbn [Z.ltb Z.compare Pos.compare Pos.compare_cont direction_vector].
  assert (E2 : b2z (d =? 2) = 0) by (destruct Hd as [->| ->]; reflexivity). 
  eexists. split; [reflexivity|].
  set (lo := triple (sx + b2z (d =? 0)) (sy + b2z (d =? 1)) (sz + b2z (d =? 2))). set (hi := triple ex ey ez).
  assert (Z0 : sz = 0 /\ ez = 1).
  { lia. }
  destruct Z0 as [-> ->].
  match goal with |- context [kernel 1024 ?n lo ?bd] => destruct (sum_unique v n lo bd
    (fun c => Rabs (vget v c - vget v (let '(x, y, z) := c in
       ((x - b2z (d =? 0))%Z, (y - b2z (d =? 1))%Z, (z - b2z (d =? 2))%Z))) ^ p)%R hi) as (G1 & G2) end.
  - unfold good, lo, hi, triple. cbn [Z.eqb Pos.eqb]. rewrite E2.
    assert ((ex - (sx + b2z (d =? 0))) * (ey - (sy + b2z (d =? 1))) <= vnx v * vny v).
    { destruct Hd as [->| ->]; cbn in *; apply Z.mul_le_mono_nonneg; lia. }
    destruct Hd as [Ed|Ed]; subst d; cbn [Z.eqb Pos.eqb b2z] in *; repeat split; rewrite ?Z.sub_0_r, ?Z.mul_1_r; try lia.
  - intros k _. lia.
  - readers.
  - intros x y z Rx Ry Rz. unfold lo, hi, triple in Rx, Ry, Rz. cbn [Z.eqb Pos.eqb] in Rx, Ry, Rz. rewrite E2 in *.
    assert (z = 0) by lia. subst z.
    assert (B1 : 0 <= y * vnx v + x < vnx v * vny v).
    { apply flat_ok; auto; destruct Hd as [->| ->]; cbn in *; lia. }
    assert (B2 : 0 <= (y - b2z (d =? 1)) * vnx v + (x - b2z (d =? 0)) < vnx v * vny v).
    { apply flat_ok; auto; destruct Hd as [->| ->]; cbn in *; lia. }
    change (0 - 0) with 0. rewrite !Z.mul_0_l, !Z.add_0_l.
    rewrite !wrap64_small by (unfold two64; lia). cbn [run]. rewrite !(inside_ok v) by (auto; lia). cbn [run].
    rewrite cpow_nat. unfold vget, index. rewrite !Z.mul_0_l, !Z.add_0_l. reflexivity.
  - split; [exact G1|]. intros w. rewrite G2. unfold pair_sum.
    assert (X : forall g, sum3 lo hi g = sum3 (fun k => if k =? d then comp (sx, sy, 0) k + 1 else comp (sx, sy, 0) k) (comp (ex, ey, 1)) g).
    { intros g. unfold sum3, lo, hi, triple, comp, nvec. cbn [Z.eqb Pos.eqb]. destruct Hd as [->| ->]; cbn [Z.eqb Pos.eqb b2z]; rewrite ?Z.add_0_r; reflexivity. }
    rewrite X. split; [intros ->; reflexivity|intros H; injection H as <-; reflexivity].
Qed.

(** * The property for one dimension is false *)
Definition variation_agrees : Prop :=
  forall v p a b, vny v = 1 -> vnz v = 1 -> vnx v < 2 ^ 31 -> 0 <= a -> a + 1 < b -> b <= vnx v ->
  exists ps, cuda_variation v (Z.of_nat p) (a, 0, 0) (b, 1, 1) = Some ps /\
    forall r, outcomes (fun _ => vsize v) ps (fun _ => vdat v) r -> exists x, r = Ok x.

(** Every call on a one-dimensional area reads outside of it: line 167 of
    vector_operations.cu asks for ny > 0 instead of ny > 1. *)
Theorem C73_variation_line_outside : forall v p a b, vny v = 1 -> vnz v = 1 -> vnx v < 2 ^ 31 -> 0 <= a -> a + 1 < b -> b <= vnx v ->
  exists ps, cuda_variation v p (a, 0, 0) (b, 1, 1) = Some ps /\
    (outcomes (fun _ => vsize v) ps (fun _ => vdat v) UB) /\
    forall x, ~ outcomes (fun _ => vsize v) ps (fun _ => vdat v) (Ok x).
Proof.
  intros v p a b Hy Hz Hs Ha Hab Hb. unfold cuda_variation. rewrite Hy, Hz. cbn [Z.ltb Z.compare Pos.compare Pos.compare_cont b2z].
  eexists. split; [reflexivity|]. cbv zeta.
  set (lo := triple (a + 1) (0 + 0) (0 + 0)). set (hi := triple b 1 1).
  match goal with |- context [kernel 1024 ?n1 lo ?bd] => set (n := n1); set (body := bd) end.
  assert (G : good n).
  { unfold good, n, lo, hi, triple. cbn [Z.eqb Pos.eqb]. replace (1 - (0 + 0)) with 1 by lia. rewrite !Z.mul_1_r. lia. }
  assert (I : independent (kernel 1024 n lo body)).
  { apply kernel_independent; [exact G|]. intros. intros w w' q i A1 A2.
    assert (L : forall x y z w a i, accs (body x y z) w a i -> w = false).
    { clear. unfold body. readers. }
    split; eapply L; eassumption. }
  assert (U : outcome (fun _ => vsize v) (kernel 1024 n lo body) (fun _ => vdat v) UB).
  { rewrite kernel_good by exact G.
    assert (T : 1 <= threads 1024 (n 0 * n 1 * n 2)).
    { assert (1 <= n 0 * n 1 * n 2).
      { unfold n, lo, hi, triple. cbn [Z.eqb Pos.eqb]. replace (1 - (0 + 0)) with 1 by lia. rewrite !Z.mul_1_r. lia. }
      pose proof (threads_ge 1024 (n 0 * n 1 * n 2) ltac:(lia) ltac:(lia)). lia. }
    rewrite zrange_cons by lia. cbn [map].
    assert (E : thread n lo body 0 = body (a + 1) 0 0).
    { replace 0 with ((0 * n 1 + 0) * n 0 + 0) at 1 by lia. rewrite thread_in by (try exact G; destruct G as (? & ? & ? & _); lia).
      unfold lo, triple. cbn [Z.eqb Pos.eqb]. reflexivity. }
    rewrite E. unfold body. rewrite !Z.mul_0_l, !Z.add_0_l. change (0 <? 1) with true. cbv iota.
    assert (F : forall i, 0 <= i < vnx v -> inside (fun _ => vsize v) 0 (wrap64 i) = true).
    { intros i Hi. rewrite wrap64_small by (unfold two64; lia). apply inside_ok; [exact Hz|]. rewrite Hy. lia. }
    match goal with |- outcome ?sz (_ :: ?rest) ?m UB => set (rest0 := rest) end.
    eapply (outcome_ub _ _ _ 2).
    - eapply psteps_S; [apply (step_load _ (fun _ => vdat v) [] 0 _ _ rest0); apply F; lia|]. cbv beta. cbn [app].
      eapply psteps_S; [apply (step_load _ (fun _ => vdat v) [] 0 _ _ rest0); apply F; lia|]. apply psteps_0.
    - cbn [app]. eapply (undefined_access _ _ [] _ rest0); [reflexivity|].
      unfold inside, vsize. rewrite Hy, Hz, !Z.mul_1_r.
      assert (W : wrap64 (wrap64 (0 - 1) * vnx v + (a + 1)) = two64 - vnx v + (a + 1)).
      { unfold wrap64. change ((0 - 1) mod two64) with (two64 - 1).
        replace ((two64 - 1) * vnx v + (a + 1)) with ((two64 - vnx v + (a + 1)) + (vnx v - 1) * two64) by ring.
        rewrite Z.mod_add by (unfold two64; lia). apply Z.mod_small. unfold two64. lia. }
      rewrite W. apply andb_false_iff. right. apply Z.ltb_ge. unfold two64. lia. }
  split; [constructor; exact U|]. intros x O. inversion O as [| | |? ? ? m1 xs m2 ys O1 O2]; subst.
  inversion U as [|k s K1 K2]; subst. inversion O1 as [n2 m' xss N2|]; subst.
  assert (finished (m1, map (@Ret R R) xss)) as Fin by (exists xss; auto).
  destruct (steps_towards _ k n2 (fun _ => vdat v, kernel 1024 n lo body) _ _ I N2 Fin K1) as (_ & Q & J).
  exact (safe _ _ _ _ J Q Fin K2).
Qed.
Theorem C73_variation_refuted : ~ variation_agrees.
Proof.
  intros H. pose (v := mkvol 2 1 1 IZR).
  destruct (H v 1%nat 0 2) as (ps & E & O); try reflexivity; try lia; try (cbn; lia).
  destruct (C73_variation_line_outside v (Z.of_nat 1) 0 2) as (ps' & E' & U & _); try reflexivity; try lia; try (cbn; lia).
  rewrite E in E'. injection E' as <-. destruct (O _ U) as (x & X). discriminate.
Qed.

(** Three dimensions are refused on the GPU, with a direction too; the host computes
    the sum (C47_directional). *)
Theorem C73_variation_3d_refused : forall v d p start stop, 1 < vnz v ->
  cuda_variation v p start stop = None /\ cuda_variation_dir v d p start stop = None.
Proof.
  intros v d p [[sx sy] sz] [[ex ey] ez] H. unfold cuda_variation, cuda_variation_dir, direction_vector.
  rewrite (proj2 (Z.ltb_lt 1 (vnz v))) by exact H. auto.
Qed.

(** * Cases *)
Example C73_nonvacuous_ops : exists m', 
  outcomes (fun _ => 3) (cuda_elementwise 3 [1] (fun x l => x * hd 0 l)%R) (fun a i => IZR (a + i + 1)) (Ok (m', [])) /\
  map (m' 0) [0; 1; 2; 3] = [(1 * 2)%R; (2 * 3)%R; (3 * 4)%R; 4%R].
Proof.
  eexists. split; [apply (C73_elementwise (fun _ => 3)); [lia|reflexivity|reflexivity]|]. reflexivity.
Qed.
Example C73_nonvacuous_plane : exists ps w,
  cuda_variation (mkvol 2 2 1 (fun i => IZR (i * i))) 2 (0, 0, 0) (2, 2, 1) = Some ps /\
  cuda_sum (mkvol 2 2 1 (fun i => IZR (i * i))) ps w /\ w = ((9 - 4) ^ 2 + (9 - 1) ^ 2)%R.
Proof.
  destruct (C73_variation_plane_partial (mkvol 2 2 1 (fun i => IZR (i * i))) 2 0 2 0 2) as (ps & E & _ & W); try (cbn; lia).
  exists ps. eexists. split; [exact E|]. split; [|reflexivity]. apply W.
  rewrite (C47_plane_partial _ 2 0 2 0 2) by (cbn; lia). f_equal.
  unfold gradient_sum, sum3, sumz. cbn [comp nvec Z.eqb Pos.eqb Z.ltb Z.compare Pos.compare Pos.compare_cont].
  change (0 + 1) with 1. change (zrange 0 1) with [0]. change (zrange 1 2) with [1].
  cbn [map fold_right]. unfold vget, index. cbn [vnx vny vdat].
  change (IZR ((0 * 2 * 2 + 1 * 2 + 1) * (0 * 2 * 2 + 1 * 2 + 1))) with 9%R.
  change (IZR ((0 * 2 * 2 + (1 - 1) * 2 + 1) * (0 * 2 * 2 + (1 - 1) * 2 + 1))) with 1%R.
  change (IZR ((0 * 2 * 2 + 1 * 2 + (1 - 1)) * (0 * 2 * 2 + 1 * 2 + (1 - 1)))) with 4%R.
  rewrite pow2_sqrt; [ring|]. nra.
Qed.

Print Assumptions C73_elementwise.
Print Assumptions C73_memory_operations.
Print Assumptions C73_size_mismatch.
Print Assumptions C73_variation_plane_partial.
Print Assumptions C73_variation_direction_partial.
Print Assumptions C73_variation_line_outside.
Print Assumptions C73_variation_refuted.
Print Assumptions C73_variation_3d_refused.
