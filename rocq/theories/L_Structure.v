(** Lemmas about the structure function loops. *)
From Coq Require Import ZArith Reals List Bool Lia Lra Permutation.
From Verif Require Import M_Base L_Base L_Loops M_Sim L_Sim M_Memory S_Memory L_Memory S_Sum L_Sum
  M_Stats S_Stats L_Stats L_StatsRun L_Adds M_Structure S_Structure.
Import ListNotations.
Open Scope Z_scope.

(** * Values outside the interior *)

Lemma positive_loop_spec N : 0 < N -> forall fuel x, - x <= Z.of_nat fuel ->
  exists y, positive_loop fuel x N = Ok y /\ 0 <= y /\ y mod N = x mod N.
Proof.
  intros HN. induction fuel as [|fuel IH]; intros x Hx; cbn [positive_loop].
  - destruct (Z.ltb_spec x 0); [lia|]. exists x. auto.
  - destruct (Z.ltb_spec x 0); [|exists x; auto].
    destruct (IH (x + N)) as (y & E & P & M); [lia|]. exists y. split; [exact E|]. split; [exact P|].
    rewrite M. replace (x + N) with (x + 1 * N) by lia. now rewrite Z_mod_plus_full.
Qed.

Lemma wrapped x N : 0 < N -> exists y, make_positive x N = Ok y /\ crem y N = Ok (wrap N x) /\ 0 <= wrap N x < N.
Proof.
  intros HN. destruct (positive_loop_spec N HN (Z.to_nat (- x)) x) as (y & E & P & M); [lia|].
  exists y. split; [exact E|]. unfold crem, wrap. destruct (Z.eqb_spec N 0); [lia|].
  rewrite Z.rem_mod_nonneg, M by lia. split; [reflexivity|]. now apply Z.mod_pos_bound.
Qed.

Lemma nearest_eq n x : 0 < n -> Z.max 0 (Z.min x (n - 1)) = nearest n x /\ 0 <= nearest n x < n.
Proof.
  intros H. unfold nearest. destruct (Z.ltb_spec x 0); [lia|]. destruct (Z.leb_spec n x); lia.
Qed.

Lemma index_range (v : vol R) x y z : 0 <= x < vnx v -> 0 <= y < vny v -> 0 <= z < vnz v ->
  0 <= index (vnx v) (vny v) x y z < vsize v.
Proof.
  intros Hx Hy Hz. unfold index, vsize.
  replace (z * vnx v * vny v + y * vnx v + x) with ((z * vny v + y) * vnx v + x) by ring.
  assert (0 <= z * vny v + y) by nia. assert (z * vny v + y <= vny v * vnz v - 1) by nia.
  split; [nia|]. replace (vnx v * vny v * vnz v) with (vnx v * (vny v * vnz v)) by ring. nia.
Qed.

Lemma value_at_ok b u pos n g : b <> OtherBC -> positive_cells n -> nonneg_cells g -> has_cells g n u ->
  value_at b u pos n g = Ok (extended b g n u pos).
Proof.
  destruct pos as [[x y] z], n as [[nx ny] nz], g as [[gx gy] gz]. cbn [positive_cells nonneg_cells has_cells].
  intros Hb (Px & Py & Pz) (Gx & Gy & Gz) (Ex & Ey & Ez). destruct b; [| |congruence]; cbn [value_at extended].
  - destruct (wrapped x nx Px) as (x' & -> & Rx & Bx). destruct (wrapped y ny Py) as (y' & -> & Ry & By).
    destruct (wrapped z nz Pz) as (z' & -> & Rz & Bz). cbn [bind]. rewrite Rx. cbn [bind].
    rewrite Ry. cbn [bind]. rewrite Rz. cbn [bind].
    rewrite mload_ok by (apply index_range; lia). reflexivity.
  - destruct (nearest_eq nx x Px) as (-> & Bx). destruct (nearest_eq ny y Py) as (-> & By).
    destruct (nearest_eq nz z Pz) as (-> & Bz).
    rewrite mload_ok by (apply index_range; lia). reflexivity.
Qed.

Lemma has_cells_inner g n u : has_cells g n u -> inner g u = n.
Proof.
  destruct n as [[nx ny] nz], g as [[gx gy] gz]. cbn. intros (-> & -> & ->). repeat apply f_equal2; lia.
Qed.

Lemma int_cells_ok n : positive_cells n -> cells_of n < 2 ^ 31 -> int_cells n = Ok (cells_of n).
Proof.
  destruct n as [[nx ny] nz]. cbn [positive_cells cells_of int_cells]. intros (Hx & Hy & Hz) H.
  assert (0 < nx * ny) by nia. assert (nx * ny <= nx * ny * nz) by nia.
  unfold is_int. rewrite !(proj2 (Z.leb_le _ _)) by lia. rewrite !(proj2 (Z.ltb_lt _ _)) by lia. reflexivity.
Qed.

Lemma interior_load g n u i j k : nonneg_cells g -> has_cells g n u ->
  0 <= i < comp n 0 -> 0 <= j < comp n 1 -> 0 <= k < comp n 2 ->
  (let '(gx, gy, gz) := g in vload u (i + gx) (j + gy) (k + gz)) = Ok (interior_value g u (i, j, k)).
Proof.
  destruct n as [[nx ny] nz], g as [[gx gy] gz]. cbn. intros (? & ? & ?) (? & ? & ?) ? ? ?.
  rewrite vload_ok; [reflexivity|]. unfold inr. lia.
Qed.

Lemma fast_power_pow p x : (0 < p)%nat -> fast_power p x = (x ^ p)%R.
Proof.
  induction p as [|p IH]; [lia|]. intros _. destruct p as [|p]; [cbn; ring|].
  change (fast_power (S (S p)) x) with (x * fast_power (S p) x)%R. rewrite IH by lia. reflexivity.
Qed.

Lemma dispatch_power_pow p x : dispatch_power (Z.of_nat p) x = (x ^ p)%R.
Proof.
  unfold dispatch_power.
  destruct (Z.eqb_spec (Z.of_nat p) 1) as [E|_]; [replace p with 1%nat by lia; now apply fast_power_pow; lia|].
  destruct (Z.eqb_spec (Z.of_nat p) 2) as [E|_]; [replace p with 2%nat by lia; now apply fast_power_pow; lia|].
  destruct (Z.eqb_spec (Z.of_nat p) 3) as [E|_]; [replace p with 3%nat by lia; now apply fast_power_pow; lia|].
  destruct (Z.eqb_spec (Z.of_nat p) 4) as [E|_]; [replace p with 4%nat by lia; now apply fast_power_pow; lia|].
  destruct (Z.eqb_spec (Z.of_nat p) 5) as [E|_]; [replace p with 5%nat by lia; now apply fast_power_pow; lia|].
  apply cpow_nat.
Qed.

(** * The positions visited by the cube loops *)

Definition shell1 (i j k h : Z) : list cell :=
  box 0 1 0 1 (i - h) (i - h + 1) ++ box 0 1 0 1 (i + h) (i + h + 1).
Definition shell2 (i j k h : Z) : list cell :=
  box 0 1 (j - h + 1) (j + h) (i - h) (i - h + 1) ++ box 0 1 (j - h + 1) (j + h) (i + h) (i + h + 1) ++
  box 0 1 (j - h) (j - h + 1) (i - h) (i + h + 1) ++ box 0 1 (j + h) (j + h + 1) (i - h) (i + h + 1).
Definition shell3 (i j k h : Z) : list cell :=
  box (k - h) (k + h + 1) (j - h + 1) (j + h) (i - h) (i - h + 1) ++
  box (k - h) (k + h + 1) (j - h + 1) (j + h) (i + h) (i + h + 1) ++
  box (k - h) (k + h + 1) (j - h) (j - h + 1) (i - h) (i + h + 1) ++
  box (k - h) (k + h + 1) (j + h) (j + h + 1) (i - h) (i + h + 1) ++
  box (k - h) (k - h + 1) (j - h + 1) (j + h) (i - h + 1) (i + h + 1 - 1) ++
  box (k + h) (k + h + 1) (j - h + 1) (j + h) (i - h + 1) (i + h + 1 - 1).
Definition shell (dims i j k h : Z) : list cell :=
  if dims =? 1 then shell1 i j k h else if dims =? 2 then shell2 i j k h else shell3 i j k h.

Lemma for3_box' {S} zlo zhi ylo yhi xlo xhi (body : cell -> S -> res S) s :
  for3 zlo zhi ylo yhi xlo xhi (fun x y z => body (x, y, z)) s = fold_res body (box zlo zhi ylo yhi xlo xhi) s.
Proof. rewrite for3_box. apply fold_res_ext. intros [[x y] z] ? _. reflexivity. Qed.

Lemma bind_ret {A} (r : res A) : (x <- r;; Ok x) = r.
Proof. now destruct r. Qed.

Lemma cube_for_each_list {S} (body : cell -> S -> res S) dims i j k h s : dims = 1 \/ dims = 2 \/ dims = 3 ->
  cube_for_each body dims i j k h s = fold_res body (shell dims i j k h) s.
Proof.
  intros [->|[->| ->]]; unfold cube_for_each, for_ at 1 2; unfold shell; cbn [Z.eqb Pos.eqb].
  - change (zrange 0 1) with [0]. change (zrange 0 2) with [0; 1]. cbn -[for3 Z.add Z.sub].
    rewrite for3_box'. unfold shell1. rewrite fold_res_app.
    destruct (fold_res body (box 0 1 0 1 (i - h) (i - h + 1)) s) as [s1| |]; cbn [bind]; auto.
    rewrite for3_box', !bind_ret. reflexivity.
  - change (zrange 0 2) with [0; 1]. cbn -[for3 Z.add Z.sub]. unfold shell2.
    repeat (rewrite fold_res_app; rewrite for3_box'; destruct (fold_res body _ s) as [s1| |]; cbn [bind]; auto; clear s; rename s1 into s).
    rewrite for3_box', !bind_ret. reflexivity.
  - change (zrange 0 3) with [0; 1; 2]. change (zrange 0 2) with [0; 1]. cbn -[for3 Z.add Z.sub]. unfold shell3.
    repeat (rewrite fold_res_app; rewrite for3_box'; destruct (fold_res body _ s) as [s1| |]; cbn [bind]; auto; clear s; rename s1 into s).
    rewrite for3_box', !bind_ret. reflexivity.
Qed.

Lemma NoDup_app_disjoint {A} (l1 l2 : list A) : NoDup l1 -> NoDup l2 -> (forall a, In a l1 -> ~ In a l2) ->
  NoDup (l1 ++ l2).
Proof.
  intros N1 N2 H. induction l1 as [|a l1 IH]; [exact N2|]. inversion N1; subst. cbn. constructor.
  - rewrite in_app_iff. intros [X|X]; [auto|]. apply (H a); [now left|exact X].
  - apply IH; auto. intros b Hb. apply H. now right.
Qed.

Lemma shell_NoDup dims i j k h : dims = 1 \/ dims = 2 \/ dims = 3 -> 1 <= h -> NoDup (shell dims i j k h).
Proof.
  intros Hd Hh.
  assert (G : forall zl zh yl yh xl xh l, NoDup l ->
    (forall x y z, xl <= x < xh /\ yl <= y < yh /\ zl <= z < zh -> ~ In (x, y, z) l) ->
    NoDup (box zl zh yl yh xl xh ++ l)).
  { intros. apply NoDup_app_disjoint; auto using box_NoDup. intros [[x y] z] Hb. apply H0. apply box_In in Hb. tauto. }
  destruct Hd as [->|[->| ->]]; unfold shell; cbn [Z.eqb Pos.eqb]; unfold shell1, shell2, shell3;
  repeat (apply G; [|intros x y z Hb; rewrite ?in_app_iff, ?box_In; lia]); apply box_NoDup.
Qed.

Lemma max_norm_iff a b c h : 1 <= h -> max_norm (a, b, c) = h <->
  (- h <= a <= h /\ - h <= b <= h /\ - h <= c <= h) /\
  (a = h \/ a = - h \/ b = h \/ b = - h \/ c = h \/ c = - h).
Proof. unfold max_norm. lia. Qed.

Lemma shell_In dims i j k h x y z : dims = 1 \/ dims = 2 \/ dims = 3 -> 1 <= h ->
  (1 < dims \/ j = 0) -> (2 < dims \/ k = 0) ->
  In (x, y, z) (shell dims i j k h) <->
  along dims (x - i, y - j, z - k) /\ max_norm (x - i, y - j, z - k) = h.
Proof.
  intros Hd Hh Hj Hk. rewrite max_norm_iff by exact Hh. unfold along.
  destruct Hd as [->|[->| ->]]; unfold shell; cbn [Z.eqb Pos.eqb]; unfold shell1, shell2, shell3;
  rewrite ?in_app_iff, !box_In.
  - lia.
  - lia.
  - clear Hj Hk. split.
    + intros [H|[H|[H|[H|[H|H]]]]]; (split; [lia|]); (split; [lia|]); lia.
    + intros (_ & (Bx & By & Bz) & H).
      destruct (Z.eq_dec (y - j) (- h)); [do 2 right; left; lia|].
      destruct (Z.eq_dec (y - j) h); [do 3 right; left; lia|].
      destruct (Z.eq_dec (x - i) (- h)); [left; lia|].
      destruct (Z.eq_dec (x - i) h); [right; left; lia|].
      destruct (Z.eq_dec (z - k) (- h)); [do 4 right; left; lia|].
      do 5 right. lia.
Qed.

Lemma box_length zl zh yl yh xl xh : length (box zl zh yl yh xl xh) =
  (Z.to_nat (zh - zl) * (Z.to_nat (yh - yl) * Z.to_nat (xh - xl)))%nat.
Proof.
  unfold box. rewrite <- (zrange_length zl zh), <- (zrange_length yl yh), <- (zrange_length xl xh).
  induction (zrange zl zh) as [|z lz IH]; [reflexivity|]. cbn [flat_map length Nat.mul]. rewrite app_length.
  f_equal; [|exact IH]. clear IH. induction (zrange yl yh) as [|y ly IH]; [reflexivity|].
  cbn [flat_map length Nat.mul]. rewrite app_length, map_length. f_equal. exact IH.
Qed.

Lemma shell_length dims i j k h : dims = 1 \/ dims = 2 \/ dims = 3 -> 1 <= h ->
  Z.of_nat (length (shell dims i j k h)) = (2 * h + 1) ^ dims - (2 * h - 1) ^ dims.
Proof.
  intros [->|[->| ->]] Hh; unfold shell; cbn [Z.eqb Pos.eqb]; unfold shell1, shell2, shell3;
  rewrite ?app_length, !box_length.
  - rewrite !Nat2Z.inj_add, !Nat2Z.inj_mul, !Z2Nat.id by lia. ring.
  - rewrite !Nat2Z.inj_add, !Nat2Z.inj_mul, !Z2Nat.id by lia. ring.
  - rewrite !Nat2Z.inj_add, !Nat2Z.inj_mul, !Z2Nat.id by lia. ring.
Qed.

(** * Sums *)

Lemma sumz_single lo hi i (F : Z -> R) :
  sumz lo hi (fun k => if i =? k then F k else 0%R) = if (lo <=? i) && (i <? hi) then F i else 0%R.
Proof.
  destruct (Z_le_gt_dec lo i) as [L|L].
  - rewrite (proj2 (Z.leb_le lo i)) by lia. cbn [andb]. destruct (Z_lt_ge_dec i hi) as [U|U].
    + rewrite (proj2 (Z.ltb_lt i hi)) by lia. unfold sumz.
      rewrite (zrange_app lo i hi), map_app, fold_plus_app by lia.
      rewrite (zrange_cons i hi) by lia. cbn [map fold_right]. rewrite Z.eqb_refl.
      fold (sumz lo i (fun k => if i =? k then F k else 0%R)).
      fold (sumz (i + 1) hi (fun k => if i =? k then F k else 0%R)).
      rewrite (sumz_ext lo i _ (fun _ => 0%R)), (sumz_ext (i + 1) hi _ (fun _ => 0%R)), !sumz_zero.
      * lra.
      * intros k Hk. destruct (Z.eqb_spec i k); [lia|reflexivity].
      * intros k Hk. destruct (Z.eqb_spec i k); [lia|reflexivity].
    + rewrite (proj2 (Z.ltb_ge i hi)) by lia. rewrite (sumz_ext lo hi _ (fun _ => 0%R)); [apply sumz_zero|].
      intros k Hk. destruct (Z.eqb_spec i k); [lia|reflexivity].
  - rewrite (proj2 (Z.leb_gt lo i)) by lia. cbn [andb].
    rewrite (sumz_ext lo hi _ (fun _ => 0%R)); [apply sumz_zero|].
    intros k Hk. destruct (Z.eqb_spec i k); [lia|reflexivity].
Qed.

Lemma sum3_div lo hi f a : sum3 lo hi (fun c => f c / a)%R = (sum3 lo hi f / a)%R.
Proof.
  unfold Rdiv. rewrite Rmult_comm, <- sum3_scal.
  assert (E : forall g h : cell -> R, (forall c, g c = h c) -> sum3 lo hi g = sum3 lo hi h).
  { intros g h H. rewrite !sum3_box. apply suml_ext. auto. }
  apply E. intros. ring.
Qed.

Lemma sum3_same lo hi (g h : cell -> R) : (forall c, g c = h c) -> sum3 lo hi g = sum3 lo hi h.
Proof. intros H. rewrite !sum3_box. apply suml_ext. auto. Qed.

Lemma plus_inj c a b : plus c a = plus c b -> a = b.
Proof.
  destruct c as [[? ?] ?], a as [[? ?] ?], b as [[? ?] ?]. cbn. intros E. injection E as ? ? ?.
  repeat apply f_equal2; lia.
Qed.

(** The sum over the positions visited is the sum over the offsets. *)
Lemma suml_shell dims i j k h f : dims = 1 \/ dims = 2 \/ dims = 3 -> 1 <= h ->
  (1 < dims \/ j = 0) -> (2 < dims \/ k = 0) ->
  suml f (shell dims i j k h) = shell_sum dims h (fun o => f (plus (i, j, k) o)).
Proof.
  intros Hd Hh Hj Hk.
  rewrite (suml_perm f (shell dims i j k h) (map (plus (i, j, k)) (shell dims 0 0 0 h))).
  - rewrite suml_map. unfold shell_sum.
    apply (sum_enumeration _ _ (fun o => max_norm o =? h)).
    + now apply shell_NoDup.
    + intros x y z. rewrite shell_In by tauto. rewrite !Z.sub_0_r, Z.eqb_eq. unfold along, max_norm.
      destruct Hd as [->|[->| ->]]; cbn; lia.
  - apply NoDup_Permutation.
    + now apply shell_NoDup.
    + apply FinFun.Injective_map_NoDup; [intros a b; apply plus_inj|]. now apply shell_NoDup.
    + intros [[x y] z]. rewrite shell_In, in_map_iff by tauto. split.
      * intros H. exists (x - i, y - j, z - k). split; [cbn; repeat apply f_equal2; lia|].
        rewrite shell_In by tauto. rewrite !Z.sub_0_r. exact H.
      * intros (((a, b), c) & E & H). rewrite shell_In in H by tauto. rewrite !Z.sub_0_r in H.
        cbn in E. injection E as <- <- <-.
        replace (i + a - i) with a by lia. replace (j + b - j) with b by lia. replace (k + c - k) with c by lia.
        exact H.
Qed.

Lemma grid_dims dims n : grid_of_dimension dims n ->
  (dims = 1 \/ dims = 2 \/ dims = 3) /\ inner_dimensions n = dims /\
  forall i j k, 0 <= i < comp n 0 -> 0 <= j < comp n 1 -> 0 <= k < comp n 2 ->
    (1 < dims \/ j = 0) /\ (2 < dims \/ k = 0).
Proof.
  destruct n as [[nx ny] nz]. cbn. intros [(-> & -> & ->)|[(-> & H & ->)|(-> & H & H')]].
  - split; [lia|]. split; [reflexivity|]. lia.
  - split; [lia|]. destruct (Z.eqb_spec ny 1); [lia|]. split; [reflexivity|]. lia.
  - split; [lia|]. destruct (Z.eqb_spec ny 1); [lia|]. destruct (Z.eqb_spec nz 1); [lia|]. split; [reflexivity|]. lia.
Qed.

(** * What one volume contributes *)

Lemma compute_cube_adds b dims numberOfH p g n u i j k h :
  b <> OtherBC -> positive_cells n -> nonneg_cells g -> has_cells g n u -> cells_of n < 2 ^ 31 ->
  grid_of_dimension dims n -> 1 <= h < numberOfH ->
  0 <= i < comp n 0 -> 0 <= j < comp n 1 -> 0 <= k < comp n 2 ->
  adds (numberOfH, 1, 1) (compute_structure_cube b (dispatch_power (Z.of_nat p)) u g i j k h)
    (fun i' => if i' =? h then
       (shell_sum dims h (fun o => Rabs (interior_value g u (i, j, k) - extended b g n u (plus (i, j, k) o)) ^ p)
        / IZR (cells_of n))%R else 0%R).
Proof.
  intros Hb Hn Hg Hu Hc Hd Hh Hi Hj Hk.
  destruct (grid_dims dims n Hd) as (Hd' & Ed & Hl). destruct (Hl i j k Hi Hj Hk) as (Lj & Lk).
  pose proof (interior_load g n u i j k Hg Hu Hi Hj Hk) as Eu.
  eapply adds_ext; [| |apply (adds_fold (numberOfH, 1, 1)
     (fun pos o => c <- value_at b u pos (inner g u) g;; old <- mload o h;; cells <- int_cells (inner g u);;
        mstore o h (old + dispatch_power (Z.of_nat p) (Rabs (interior_value g u (i, j, k) - c)) / IZR cells)%R)
     (fun pos i' => if i' =? h then (Rabs (interior_value g u (i, j, k) - extended b g n u pos) ^ p / IZR (cells_of n))%R else 0%R)
     (shell dims i j k h))].
  - intros o _. unfold compute_structure_cube. destruct g as [[gx gy] gz]. rewrite Eu. cbn [bind].
    rewrite (has_cells_inner (gx, gy, gz) n u Hu), Ed. symmetry. now apply cube_for_each_list.
  - intros i' _. cbv beta. destruct (i' =? h).
    + rewrite (suml_shell dims i j k h) by (auto; lia).
      unfold shell_sum. rewrite <- sum3_div. apply sum3_same. intros c.
      destruct (max_norm c =? h); [reflexivity|]. unfold Rdiv. ring.
    + induction (shell dims i j k h); [reflexivity|]. cbn. unfold suml in IHl. rewrite IHl. lra.
  - intros pos _. rewrite (has_cells_inner g n u Hu).
    eapply adds_ext; [| |apply (adds_one (numberOfH, 1, 1) h
       (Rabs (interior_value g u (i, j, k) - extended b g n u pos) ^ p / IZR (cells_of n))%R)].
    + intros o _. rewrite (value_at_ok b u pos n g) by auto. cbn [bind].
      rewrite int_cells_ok by auto. cbn [bind]. rewrite dispatch_power_pow. reflexivity.
    + reflexivity.
    + cbn. lia.
Qed.

Lemma cube_adds b dims numberOfH p g n u :
  b <> OtherBC -> positive_cells n -> nonneg_cells g -> has_cells g n u -> cells_of n < 2 ^ 31 ->
  grid_of_dimension dims n ->
  adds (numberOfH, 1, 1) (structure_cube_cpu b numberOfH (Z.of_nat p) g u)
    (fun h => if 1 <=? h then structure_cube_value b dims p g n u h else 0%R).
Proof.
  intros Hb Hn Hg Hu Hc Hd.
  set (X := fun h c => (shell_sum dims h (fun o => Rabs (interior_value g u c - extended b g n u (plus c o)) ^ p)
        / IZR (cells_of n))%R).
  eapply adds_ext; [| |apply (adds_for3 (numberOfH, 1, 1) (fun _ => 0) (comp n)
    (fun i j k => for_ 1 numberOfH (fun h => compute_structure_cube b (dispatch_power (Z.of_nat p)) u g i j k h))
    (fun c i' => sumz 1 numberOfH (fun h => if i' =? h then X h c else 0%R)))].
  - intros o _. unfold structure_cube_cpu. rewrite (has_cells_inner g n u Hu).
    destruct n as [[nx ny] nz]. reflexivity.
  - intros i' Hi'. cbv beta. cbn [dsize] in Hi'.
    rewrite (sum3_same _ _ _ (fun c => if 1 <=? i' then X i' c else 0%R)).
    + destruct (1 <=? i').
      * unfold X. rewrite sum3_div. reflexivity.
      * apply sum3_zero.
    + intros c. rewrite (sumz_single 1 numberOfH i' (fun h => X h c)).
      rewrite (proj2 (Z.ltb_lt i' numberOfH)) by lia. now rewrite andb_true_r.
  - intros i j k Hi Hj Hk.
    apply (adds_for (numberOfH, 1, 1) 1 numberOfH _ (fun h i' => if i' =? h then X h (i, j, k) else 0%R)).
    intros h Hh. now apply compute_cube_adds.
Qed.

Lemma checked_cube_adds bc b dims numberOfH p g n u :
  (forall side, 0 <= side < 2 * dims -> bc side = b) ->
  b <> OtherBC -> positive_cells n -> nonneg_cells g -> has_cells g n u -> cells_of n < 2 ^ 31 ->
  grid_of_dimension dims n ->
  adds (numberOfH, 1, 1) (structure_cube_checked bc dims numberOfH (Z.of_nat p) g u)
    (fun h => if 1 <=? h then structure_cube_value b dims p g n u h else 0%R).
Proof.
  intros Hbc Hb Hn Hg Hu Hc Hd. destruct (grid_dims dims n Hd) as (Hd' & _ & _).
  eapply adds_ext; [| |apply (cube_adds b dims numberOfH p g n u); auto]; [|reflexivity].
  intros o _. unfold structure_cube_checked. rewrite (Hbc 0) by lia.
  assert (F : forallb (fun side => bt_eqb (bc side) b) (zrange 0 (2 * dims)) = true).
  { apply forallb_forall. intros s Hs. apply zrange_In in Hs. rewrite Hbc by lia. destruct b; reflexivity. }
  rewrite F. destruct b; congruence.
Qed.

Lemma basic_adds b numberOfH p d g n u :
  b <> OtherBC -> positive_cells n -> nonneg_cells g -> has_cells g n u -> cells_of n < 2 ^ 31 ->
  adds (numberOfH, 1, 1) (structure_basic_loop b numberOfH (Z.of_nat p) d g u)
    (fun h => structure_value b p d g n u h).
Proof.
  intros Hb Hn Hg Hu Hc.
  set (X := fun h c => (Rabs (interior_value g u c - extended b g n u (plus c (step d h))) ^ p / IZR (cells_of n))%R).
  eapply adds_ext; [| |apply (adds_for3 (numberOfH, 1, 1) (fun _ => 0) (comp n)
    (fun i j k => for_ 0 numberOfH (fun h o =>
      a <- (let '(gx, gy, gz) := g in vload u (i + gx) (j + gy) (k + gz));;
      c <- value_at b u (plus (i, j, k) (step d h)) n g;;
      old <- vload o h 0 0;;
      cells <- int_cells n;;
      vstore o h 0 0 (old + cpow (Rabs (a - c)) (Z.of_nat p) / IZR cells)%R))
    (fun c i' => sumz 0 numberOfH (fun h => if i' =? h then X h c else 0%R)))].
  - intros o _. unfold structure_basic_loop. rewrite (has_cells_inner g n u Hu).
    destruct n as [[nx ny] nz], g as [[gx gy] gz]. reflexivity.
  - intros i' Hi'. cbv beta. cbn [dsize] in Hi'.
    rewrite (sum3_same _ _ _ (fun c => X i' c)).
    + unfold X. rewrite sum3_div. reflexivity.
    + intros c. rewrite (sumz_single 0 numberOfH i' (fun h => X h c)).
      rewrite (proj2 (Z.ltb_lt i' numberOfH)), (proj2 (Z.leb_le 0 i')) by lia. reflexivity.
  - intros i j k Hi Hj Hk.
    apply (adds_for (numberOfH, 1, 1) 0 numberOfH _ (fun h i' => if i' =? h then X h (i, j, k) else 0%R)).
    intros h Hh.
    eapply adds_ext; [| |apply (adds_at numberOfH 1 1 h 0 0 (X h (i, j, k))); lia].
    + intros o _. rewrite (interior_load g n u i j k) by auto. cbn [bind].
      rewrite (value_at_ok b u (plus (i, j, k) (step d h)) n g) by auto. cbn [bind].
      rewrite int_cells_ok by auto. cbn [bind]. rewrite cpow_nat. reflexivity.
    + intros i' _. replace (index numberOfH 1 h 0 0) with h by (unfold index; lia). reflexivity.
Qed.

(** Two points: what is computed uses [n'], the cell numbers less the ghost cells
    once more, and the first direction twice. *)
Definition shrink (g n : cell) : cell :=
  let '(nx, ny, nz) := n in let '(gx, gy, gz) := g in (nx - 2 * gx, ny - 2 * gy, nz - 2 * gz).

Lemma twice_inner_shrink g n u : has_cells g n u -> twice_inner g u = shrink g n.
Proof. intros H. unfold twice_inner. rewrite (has_cells_inner g n u H). reflexivity. Qed.

Lemma nearest_min n x : 0 < n -> 0 <= x -> Z.min x (n - 1) = nearest n x /\ 0 <= nearest n x < n.
Proof. intros H H'. destruct (nearest_eq n x H) as (E & B). split; [lia|exact B]. Qed.

Lemma two_points_adds numberOfH d1 d2 g n u :
  0 < numberOfH -> nonneg_cells g -> has_cells g n u -> positive_cells (shrink g n) -> cells_of (shrink g n) < 2 ^ 31 ->
  adds (numberOfH, numberOfH, 1) (structure_two_points_loop numberOfH d1 d2 g u)
    (fun i => two_point_value d1 d1 g (shrink g n) u (i mod numberOfH) (i / numberOfH)).
Proof.
  intros HH Hg Hu Hn Hc. pose proof (twice_inner_shrink g n u Hu) as Et.
  set (n' := shrink g n) in *.
  set (X := fun h1 h2 c => ((extended Neumann g n' u (plus c (step d1 h1)) - interior_value g u c) ^ 2 *
    (extended Neumann g n' u (plus c (step d1 h2)) - interior_value g u c) / IZR (cells_of n'))%R).
  assert (Hbig : forall c h, 0 <= comp c 0 < comp n' 0 -> 0 <= comp c 1 < comp n' 1 -> 0 <= comp c 2 < comp n' 2 -> 0 <= h ->
    (let '(i, j, k) := c in let '(nx, ny, nz) := n' in let '(gx, gy, gz) := g in let '(dx, dy, dz) := direction_vector d1 in
     vload u (Z.min (i + h * dx) (nx - 1) + gx) (Z.min (j + h * dy) (ny - 1) + gy) (Z.min (k + h * dz) (nz - 1) + gz)) =
    Ok (extended Neumann g n' u (plus c (step d1 h))) /\
    (let '(i, j, k) := c in let '(nx, ny, nz) := n' in let '(gx, gy, gz) := g in let '(dx, dy, dz) := direction_vector d1 in
     vload u (Z.rem (Z.min (i + h * dx) (nx - 1)) nx + gx) (Z.rem (Z.min (j + h * dy) (ny - 1)) ny + gy)
             (Z.rem (Z.min (k + h * dz) (nz - 1)) nz + gz)) =
    Ok (extended Neumann g n' u (plus c (step d1 h)))).
  { intros [[i j] k] h Bi Bj Bk Hh. subst n'. destruct n as [[nx ny] nz], g as [[gx gy] gz].
    cbn [shrink comp nvec positive_cells nonneg_cells has_cells Z.eqb Pos.eqb] in *.
    change (nvec i j k 0) with i in Bi. change (nvec i j k 1) with j in Bj. change (nvec i j k 2) with k in Bk.
    change (nvec (nx - 2 * gx) (ny - 2 * gy) (nz - 2 * gz) 0) with (nx - 2 * gx) in Bi.
    change (nvec (nx - 2 * gx) (ny - 2 * gy) (nz - 2 * gz) 1) with (ny - 2 * gy) in Bj.
    change (nvec (nx - 2 * gx) (ny - 2 * gy) (nz - 2 * gz) 2) with (nz - 2 * gz) in Bk.
    destruct Hn as (Px & Py & Pz). destruct Hg as (Gx & Gy & Gz). destruct Hu as (Ex & Ey & Ez).
    unfold direction_vector. cbn [step plus extended].
    assert (Bd : forall b, 0 <= h * b2z b) by (intros []; cbn; lia).
    destruct (nearest_min (nx - 2 * gx) (i + h * b2z (d1 =? 0)) Px) as (Nx & Rx); [specialize (Bd (d1 =? 0)); lia|].
    destruct (nearest_min (ny - 2 * gy) (j + h * b2z (d1 =? 1)) Py) as (Ny & Ry); [specialize (Bd (d1 =? 1)); lia|].
    destruct (nearest_min (nz - 2 * gz) (k + h * b2z (d1 =? 2)) Pz) as (Nz & Rz); [specialize (Bd (d1 =? 2)); lia|].
    rewrite Nx, Ny, Nz. rewrite !Z.rem_small by lia.
    rewrite vload_ok by (unfold inr; lia). split; reflexivity. }
  assert (Hld : forall i j k, 0 <= i < comp n' 0 -> 0 <= j < comp n' 1 -> 0 <= k < comp n' 2 ->
    (let '(gx, gy, gz) := g in vload u (i + gx) (j + gy) (k + gz)) = Ok (interior_value g u (i, j, k))).
  { intros i j k Bi Bj Bk. apply (interior_load g n u i j k Hg Hu); subst n'; destruct n as [[nx ny] nz], g as [[gx gy] gz];
      destruct Hg as (? & ? & ?); unfold comp, nvec, shrink in *; cbn [Z.eqb Pos.eqb] in *; lia. }
  eapply adds_ext; [| |apply (adds_for3 (numberOfH, numberOfH, 1) (fun _ => 0) (comp n')
    (fun i j k o =>
      a <- (let '(gx, gy, gz) := g in vload u (i + gx) (j + gy) (k + gz));;
      for_ 0 numberOfH (fun h1 o =>
        a1 <- (let '(nx, ny, nz) := n' in let '(gx, gy, gz) := g in let '(dx, dy, dz) := direction_vector d1 in
               vload u (Z.min (i + h1 * dx) (nx - 1) + gx) (Z.min (j + h1 * dy) (ny - 1) + gy)
                       (Z.min (k + h1 * dz) (nz - 1) + gz));;
        for_ 0 numberOfH (fun h2 o =>
          a2 <- (let '(nx, ny, nz) := n' in let '(gx, gy, gz) := g in let '(dx, dy, dz) := direction_vector d1 in
                 vload u (Z.rem (Z.min (i + h2 * dx) (nx - 1)) nx + gx)
                         (Z.rem (Z.min (j + h2 * dy) (ny - 1)) ny + gy)
                         (Z.rem (Z.min (k + h2 * dz) (nz - 1)) nz + gz));;
          old <- vload o h1 h2 0;;
          cells <- int_cells n';;
          vstore o h1 h2 0 (old + (a1 - a) * (a1 - a) * (a2 - a) / IZR cells)%R) o) o)
    (fun c i => sumz 0 numberOfH (fun h1 => sumz 0 numberOfH (fun h2 =>
       if i =? index numberOfH numberOfH h1 h2 0 then X h1 h2 c else 0%R))))].
  - intros o _. unfold structure_two_points_loop. rewrite Et. destruct n' as [[nx ny] nz], g as [[gx gy] gz]. reflexivity.
  - intros i Hi. cbv beta. cbn [dsize] in Hi. rewrite Z.mul_1_r in Hi.
    pose proof (Z.mod_pos_bound i numberOfH HH) as B1.
    pose proof (Z.div_mod i numberOfH ltac:(lia)) as E.
    assert (B2 : 0 <= i / numberOfH < numberOfH).
    { split; [apply Z.div_pos; lia|]. apply Z.div_lt_upper_bound; lia. }
    rewrite (sum3_same _ _ _ (fun c => X (i mod numberOfH) (i / numberOfH) c)).
    + unfold X. rewrite sum3_div. reflexivity.
    + intros c. rewrite (sumz_ext 0 numberOfH _ (fun h1 => if i mod numberOfH =? h1 then X h1 (i / numberOfH) c else 0%R)).
      * rewrite (sumz_single 0 numberOfH _ (fun h1 => X h1 (i / numberOfH) c)).
        rewrite (proj2 (Z.ltb_lt _ _)), (proj2 (Z.leb_le _ _)) by lia. reflexivity.
      * intros h1 Hh1. rewrite (sumz_ext 0 numberOfH _ (fun h2 => if i / numberOfH =? h2 then
            (if i mod numberOfH =? h1 then X h1 h2 c else 0%R) else 0%R)).
        -- rewrite (sumz_single 0 numberOfH _ (fun h2 => if i mod numberOfH =? h1 then X h1 h2 c else 0%R)).
           rewrite (proj2 (Z.ltb_lt _ _)), (proj2 (Z.leb_le _ _)) by lia. reflexivity.
        -- intros h2 Hh2. replace (index numberOfH numberOfH h1 h2 0) with (h2 * numberOfH + h1) by (unfold index; lia).
           destruct (Z.eqb_spec i (h2 * numberOfH + h1)) as [Ei|Ni].
           ++ assert (h2 = i / numberOfH) by (apply (Z.div_unique i numberOfH h2 h1); lia).
              assert (h1 = i mod numberOfH) by (apply (Z.mod_unique i numberOfH h2 h1); lia).
              subst h1 h2. rewrite !Z.eqb_refl. reflexivity.
           ++ destruct (Z.eqb_spec (i / numberOfH) h2); [|reflexivity].
              destruct (Z.eqb_spec (i mod numberOfH) h1); [|reflexivity]. exfalso. apply Ni. subst. lia.
  - intros i j k Hi Hj Hk.
    eapply adds_ext; [| |apply (adds_for (numberOfH, numberOfH, 1) 0 numberOfH (fun h1 o =>
      a1 <- (let '(nx, ny, nz) := n' in let '(gx, gy, gz) := g in let '(dx, dy, dz) := direction_vector d1 in
               vload u (Z.min (i + h1 * dx) (nx - 1) + gx) (Z.min (j + h1 * dy) (ny - 1) + gy)
                       (Z.min (k + h1 * dz) (nz - 1) + gz));;
      for_ 0 numberOfH (fun h2 o =>
          a2 <- (let '(nx, ny, nz) := n' in let '(gx, gy, gz) := g in let '(dx, dy, dz) := direction_vector d1 in
                 vload u (Z.rem (Z.min (i + h2 * dx) (nx - 1)) nx + gx)
                         (Z.rem (Z.min (j + h2 * dy) (ny - 1)) ny + gy)
                         (Z.rem (Z.min (k + h2 * dz) (nz - 1)) nz + gz));;
          old <- vload o h1 h2 0;;
          cells <- int_cells n';;
          vstore o h1 h2 0 (old + (a1 - interior_value g u (i, j, k)) * (a1 - interior_value g u (i, j, k)) *
             (a2 - interior_value g u (i, j, k)) / IZR cells)%R) o)
      (fun h1 i' => sumz 0 numberOfH (fun h2 =>
       if i' =? index numberOfH numberOfH h1 h2 0 then X h1 h2 (i, j, k) else 0%R)))].
    + intros o _. rewrite (Hld i j k) by auto. reflexivity.
    + reflexivity.
    + intros h1 Hh1.
      destruct (Hbig (i, j, k) h1) as (L1 & _); auto; [lia|]. cbv beta iota in L1. rewrite L1.
      apply (adds_for (numberOfH, numberOfH, 1) 0 numberOfH _ (fun h2 i' =>
        if i' =? index numberOfH numberOfH h1 h2 0 then X h1 h2 (i, j, k) else 0%R)).
      intros h2 Hh2.
      destruct (Hbig (i, j, k) h2) as (_ & L2); auto; [lia|]. cbv beta iota in L2.
      eapply adds_ext; [| |apply (adds_at numberOfH numberOfH 1 h1 h2 0 (X h1 h2 (i, j, k))); lia].
      * intros o _. rewrite L2. cbn [bind]. rewrite int_cells_ok by auto. cbn [bind].
        unfold X. destruct (vload o h1 h2 0) as [old| |]; try reflexivity. cbn [bind]. f_equal. unfold Rdiv. ring.
      * reflexivity.
Qed.
