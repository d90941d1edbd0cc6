(** Kernel launches: sequential run, independence of the threads. *)
From Coq Require Import ZArith Reals List Bool Lia Permutation.
From Verif Require Import M_Base L_Base M_Vec M_Boundary M_Flux M_Omp L_Omp L_OmpFlux M_Cuda.
From Verif Require L_Foreach.
Import ListNotations.
Open Scope Z_scope.

Lemma zrange_off lo n : zrange lo (lo + n) = map (fun i => i + lo) (zrange 0 n).
Proof.
  unfold zrange. rewrite map_map. replace (lo + n - lo) with (n - 0) by lia.
  apply map_ext. intros. lia.
Qed.
Lemma zrange_mul a b : 0 <= a -> 0 <= b ->
  zrange 0 (a * b) = flat_map (fun j => map (fun i => j * a + i) (zrange 0 a)) (zrange 0 b).
Proof.
  intros Ha Hb. revert b Hb. apply natlike_ind.
  - rewrite Z.mul_0_r. reflexivity.
  - intros b Hb IH. unfold Z.succ. rewrite zrange_snoc, flat_map_app, <- IH by lia. cbn [flat_map]. rewrite app_nil_r.
    rewrite (zrange_app 0 (a * b)) by lia. f_equal. replace (a * (b + 1)) with (a * b + a) by lia.
    rewrite zrange_off. apply map_ext. intros. lia.
Qed.

Section Kernel.
Context {A X : Type}.
Variable size : Z -> Z.
Notation prog := (prog A X).
Notation shared := (shared A).

Definition good (n : ivec) : Prop := 0 < n 0 /\ 0 < n 1 /\ 0 < n 2 /\ n 0 * n 1 * n 2 < 2 ^ 31.
Definition thread (n lo : ivec) (body : Z -> Z -> Z -> prog) (i : Z) : prog :=
  let x := i mod n 0 in
  let y := (i / n 0) mod n 1 in
  let z := i / (n 0 * n 1) in
  if (n 0 <=? x) || (n 1 <=? y) || (n 2 <=? z) then Ret []
  else body (x + lo 0) (y + lo 1) (z + lo 2).

Lemma kernel_good block n lo body : good n ->
  kernel block n lo body = map (thread n lo body) (zrange 0 (threads block (n 0 * n 1 * n 2))).
Proof.
  intros (H0 & H1 & H2 & H3). unfold kernel.
  rewrite (proj2 (Z.ltb_lt _ _) H0), (proj2 (Z.ltb_lt _ _) H1), (proj2 (Z.ltb_lt _ _) H2), (proj2 (Z.ltb_lt _ _) H3).
  reflexivity.
Qed.
Lemma threads_ge block total : 0 < block -> 0 <= total -> total <= threads block total.
Proof.
  intros Hb Ht. unfold threads. pose proof (Z.div_mod (total + block - 1) block ltac:(lia)).
  pose proof (Z.mod_pos_bound (total + block - 1) block Hb). lia.
Qed.

Lemma thread_coords n i : good n -> 0 <= i ->
  let x := i mod n 0 in let y := (i / n 0) mod n 1 in let z := i / (n 0 * n 1) in
  0 <= x < n 0 /\ 0 <= y < n 1 /\ 0 <= z /\ i = (z * n 1 + y) * n 0 + x /\ (z < n 2 <-> i < n 0 * n 1 * n 2).
Proof.
  intros (H0 & H1 & H2 & _) Hi. cbv zeta.
  pose proof (Z.mod_pos_bound i (n 0) H0). pose proof (Z.mod_pos_bound (i / n 0) (n 1) H1).
  pose proof (Z.div_mod i (n 0) ltac:(lia)) as E1.
  pose proof (Z.div_mod (i / n 0) (n 1) ltac:(lia)) as E2.
  rewrite Z.div_div in E2 by lia.
  assert (0 <= i / (n 0 * n 1)) by (apply Z.div_pos; nia).
  do 3 (split; [lia|]). split.
  - rewrite E1 at 1. rewrite E2 at 1. ring.
  - assert (i / (n 0 * n 1) < n 2 <-> i < n 0 * n 1 * n 2); [|assumption].
    split; intros K.
    + pose proof (Z.div_mod i (n 0 * n 1) ltac:(nia)). pose proof (Z.mod_pos_bound i (n 0 * n 1) ltac:(nia)). nia.
    + apply Z.div_lt_upper_bound; nia.
Qed.

Lemma thread_in n lo body x y z : good n -> 0 <= x < n 0 -> 0 <= y < n 1 -> 0 <= z < n 2 ->
  thread n lo body ((z * n 1 + y) * n 0 + x) = body (x + lo 0) (y + lo 1) (z + lo 2).
Proof.
  intros (H0 & H1 & H2 & _) Hx Hy Hz. unfold thread.
  assert (((z * n 1 + y) * n 0 + x) mod n 0 = x) as ->.
  { rewrite Z.add_comm, Z.mod_add by lia. apply Z.mod_small; lia. }
  assert (((z * n 1 + y) * n 0 + x) / n 0 = z * n 1 + y) as E.
  { rewrite Z.add_comm, Z.div_add, Z.div_small by lia. lia. }
  rewrite <- Z.div_div, E by lia.
  assert ((z * n 1 + y) mod n 1 = y) as -> by (rewrite Z.add_comm, Z.mod_add by lia; apply Z.mod_small; lia).
  assert ((z * n 1 + y) / n 1 = z) as -> by (rewrite Z.add_comm, Z.div_add, Z.div_small by lia; lia).
  destruct (Z.leb_spec (n 0) x), (Z.leb_spec (n 1) y), (Z.leb_spec (n 2) z); try lia. reflexivity.
Qed.
Lemma thread_out n lo body i : good n -> n 0 * n 1 * n 2 <= i -> thread n lo body i = Ret [].
Proof.
  intros Hn Hi. assert (0 <= i) by (destruct Hn as (? & ? & ? & _); nia).
  destruct (thread_coords n i Hn ltac:(lia)) as (Hx & Hy & Hz & _ & Hzz). unfold thread.
  destruct (Z.leb_spec (n 2) (i / (n 0 * n 1))); [rewrite !orb_true_r; reflexivity|].
  exfalso. apply Hzz in H0. lia.
Qed.

(** One thread after the other: the loops of the CPU. *)
Lemma run_kernel block n lo (body : Z -> Z -> Z -> prog) m : 0 < block -> good n ->
  run_loop size (kernel block n lo body) m =
  for3 (lo 2) (lo 2 + n 2) (lo 1) (lo 1 + n 1) (lo 0) (lo 0 + n 0) (acc3 size body) (m, []).
Proof.
  intros Hb Hn. rewrite kernel_good, run_loop_map by exact Hn.
  set (N := n 0 * n 1 * n 2). pose proof (threads_ge block N Hb ltac:(unfold N; destruct Hn as (? & ? & ? & _); nia)) as Ht.
  assert (0 <= N) as HN by (unfold N; destruct Hn as (? & ? & ? & _); nia).
  rewrite (zrange_app 0 N) by lia. rewrite fold_res_app.
  assert (forall s, fold_res (acc size (thread n lo body)) (zrange N (threads block N)) s = Ok s) as Hout.
  { intros s. assert (forall i, In i (zrange N (threads block N)) -> N <= i) as Hi by (intros i Hi; apply zrange_In in Hi; lia).
    revert Hi. generalize (zrange N (threads block N)) as l. induction l as [|i l IH]; intros Hi; [reflexivity|].
    cbn [fold_res]. unfold acc at 1. rewrite (thread_out n lo body i Hn) by (apply Hi; cbn; auto).
    cbn [run bind fst snd]. rewrite app_nil_r. destruct s. apply IH. intros; apply Hi; cbn; auto. }
  assert (fold_res (acc size (thread n lo body)) (zrange 0 N) (m, []) =
          for3 (lo 2) (lo 2 + n 2) (lo 1) (lo 1 + n 1) (lo 0) (lo 0 + n 0) (acc3 size body) (m, [])) as E.
  { unfold for3, for_. rewrite (zrange_off (lo 2)), fold_res_map.
    unfold N. destruct Hn as (H0 & H1 & H2 & H3).
    rewrite (zrange_mul (n 0 * n 1) (n 2)), fold_res_flat_map by nia.
    apply fold_res_ext. intros z s Hz. rewrite (zrange_off (lo 1)), !fold_res_map.
    rewrite (zrange_mul (n 0) (n 1)), fold_res_flat_map by lia.
    apply fold_res_ext. intros y s' Hy. rewrite (zrange_off (lo 0)), !fold_res_map.
    apply fold_res_ext. intros x s'' Hx. apply zrange_In in Hz. apply zrange_In in Hy. apply zrange_In in Hx.
    unfold acc, acc3. replace (z * (n 0 * n 1) + (y * n 0 + x)) with ((z * n 1 + y) * n 0 + x) by ring.
    rewrite thread_in; [reflexivity| |lia..]. repeat split; lia. }
  rewrite E. destruct (for3 _ _ _ _ _ _ _ _); cbn [bind]; auto.
Qed.

Lemma kernel_independent block n lo (body : Z -> Z -> Z -> prog) : good n ->
  (forall x y z x' y' z',
     lo 0 <= x < lo 0 + n 0 -> lo 1 <= y < lo 1 + n 1 -> lo 2 <= z < lo 2 + n 2 ->
     lo 0 <= x' < lo 0 + n 0 -> lo 1 <= y' < lo 1 + n 1 -> lo 2 <= z' < lo 2 + n 2 ->
     (x, y, z) <> (x', y', z') -> apart (body x y z) (body x' y' z')) ->
  independent (kernel block n lo body).
Proof.
  intros Hn H. rewrite kernel_good by exact Hn. apply map_independent; [apply zrange_NoDup|].
  intros i j Hi Hj Hne. apply zrange_In in Hi. apply zrange_In in Hj.
  destruct (thread_coords n i Hn ltac:(lia)) as (Hx & Hy & Hz & Ei & Hzz).
  destruct (thread_coords n j Hn ltac:(lia)) as (Hx' & Hy' & Hz' & Ej & Hzz').
  destruct (Z_lt_dec i (n 0 * n 1 * n 2)) as [Hi1|Hi1].
  2:{ rewrite (thread_out n lo body i) by (auto; lia). intros w w' a q Ha. inversion Ha. }
  destruct (Z_lt_dec j (n 0 * n 1 * n 2)) as [Hj1|Hj1].
  2:{ rewrite (thread_out n lo body j) by (auto; lia). intros w w' a q _ Ha. inversion Ha. }
  apply Hzz in Hi1. apply Hzz' in Hj1.
  rewrite Ei, Ej, !thread_in by (auto; lia). apply H; try lia.
  intros K. injection K as E1 E2 E3. apply Hne. rewrite Ei, Ej.
  replace (j mod n 0) with (i mod n 0) by lia. replace ((j / n 0) mod n 1) with ((i / n 0) mod n 1) by lia.
  replace (j / (n 0 * n 1)) with (i / (n 0 * n 1)) by lia. reflexivity.
Qed.

(** Threads that store at their own place, a fixed offset from their cell. *)
Lemma own_apart (E : ivec) (wr : Z -> bool) ox oy oz (body : Z -> Z -> Z -> prog) x y z x' y' z' :
  (forall x y z w a i, accs (body x y z) w a i ->
     (w = true -> wr a = true) /\ (wr a = true -> i = at_ E (x + ox) (y + oy) (z + oz))) ->
  0 <= x + ox < E 0 -> 0 <= y + oy < E 1 -> 0 <= x' + ox < E 0 -> 0 <= y' + oy < E 1 ->
  (x, y, z) <> (x', y', z') -> apart (body x y z) (body x' y' z').
Proof.
  intros H Hx Hy Hx' Hy' Hne w w' a i H1 H2.
  destruct (H _ _ _ _ _ _ H1) as [W1 I1]. destruct (H _ _ _ _ _ _ H2) as [W2 I2].
  destruct (wr a) eqn:Ea; [|destruct w, w'; auto; exfalso; [discriminate (W1 eq_refl)| discriminate (W1 eq_refl)| discriminate (W2 eq_refl)]].
  exfalso. apply Hne. rewrite (I1 eq_refl) in I2. specialize (I2 eq_refl). unfold at_ in I2.
  apply index_inj in I2; try lia. destruct I2 as (? & ? & ?). f_equal; [f_equal|]; lia.
Qed.

Lemma own_independent block n lo (E : ivec) (wr : Z -> bool) ox oy oz (body : Z -> Z -> Z -> prog) : good n ->
  (forall x y z w a i, accs (body x y z) w a i ->
     (w = true -> wr a = true) /\ (wr a = true -> i = at_ E (x + ox) (y + oy) (z + oz))) ->
  0 <= lo 0 + ox -> lo 0 + n 0 + ox <= E 0 -> 0 <= lo 1 + oy -> lo 1 + n 1 + oy <= E 1 ->
  independent (kernel block n lo body).
Proof.
  intros Hn H H1 H2 H3 H4. apply kernel_independent; [exact Hn|].
  intros. eapply own_apart; eauto; lia.
Qed.

(** ** memcpy *)
Lemma memcpy_independent dst src n : dst <> src -> independent (memcpy (A := A) (X := X) dst src n).
Proof.
  intros Hne. apply map_independent; [apply zrange_NoDup|]. intros i j _ _ Hij w w' a q H1 H2.
  inversion H1; subst; inversion H2; subst; auto;
    repeat match goal with H : accs (Store _ _ _ _) _ _ _ |- _ => inversion H; subst; clear H end;
    repeat match goal with H : accs (Ret _) _ _ _ |- _ => inversion H end; congruence.
Qed.
Lemma run_memcpy dst src n m : dst <> src -> n <= size dst -> n <= size src ->
  exists m', run_loop size (memcpy (A := A) (X := X) dst src n) m = Ok (m', []) /\
    forall a i, m' a i = if (a =? dst) && (0 <=? i) && (i <? n) then m src i else m a i.
Proof.
  intros Hne Hd Hs. unfold memcpy. rewrite run_loop_map.
  assert (forall l m, (forall i, In i l -> 0 <= i < n) -> exists m',
    fold_res (acc (A := A) (X := X) size (fun i => Fetch src i (fun v => Store dst i v (Ret [])))) l (m, []) = Ok (m', []) /\
    forall a i, m' a i = if (a =? dst) && existsb (Z.eqb i) l then m src i else m a i) as K.
  { clear m. induction l as [|j l IH]; intros m Hl.
    - exists m. split; [reflexivity|]. intros a i. cbn. rewrite andb_false_r. reflexivity.
    - cbn [fold_res]. unfold acc at 1. cbn [run fst snd].
      assert (forall a, (a = src \/ a = dst) -> inside size a j = true) as Hin.
      { intros a Ha. specialize (Hl j (or_introl eq_refl)). unfold inside.
        assert (n <= size a) by (destruct Ha as [->| ->]; assumption).
        destruct (Z.leb_spec 0 j), (Z.ltb_spec j (size a)); try lia; reflexivity. }
      rewrite !Hin by auto. cbn [bind fst snd app].
      destruct (IH (put m dst j (m src j))) as (m' & Hr & Hm); [intros; apply Hl; cbn; auto|].
      exists m'. split; [exact Hr|]. intros a i. rewrite Hm. cbn [existsb].
      unfold put. destruct (Z.eqb_spec src dst); [congruence|]. cbn [andb].
      destruct (Z.eqb_spec a dst) as [->|]; cbn [andb]; [|reflexivity].
      destruct (Z.eqb_spec i j) as [->|]; cbn [orb]; [|reflexivity]. destruct (existsb _ _); reflexivity. }
  destruct (K (zrange 0 n) m) as (m' & Hr & Hm); [intros i Hi; apply zrange_In in Hi; lia|].
  exists m'. split; [exact Hr|]. intros a i. rewrite Hm.
  assert (existsb (Z.eqb i) (zrange 0 n) = (0 <=? i) && (i <? n)) as ->.
  { destruct (existsb (Z.eqb i) (zrange 0 n)) eqn:E.
    - apply existsb_exists in E. destruct E as (j & Hj & E). apply Z.eqb_eq in E. subst j. apply zrange_In in Hj.
      destruct (Z.leb_spec 0 i), (Z.ltb_spec i n); try lia; reflexivity.
    - destruct (Z.leb_spec 0 i), (Z.ltb_spec i n); cbn; auto. rewrite <- E.
      apply existsb_exists. exists i. split; [apply zrange_In; lia|apply Z.eqb_refl]. }
  rewrite andb_assoc. reflexivity.
Qed.
End Kernel.
