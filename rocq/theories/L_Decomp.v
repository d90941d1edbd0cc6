(** The Cartesian decomposition. *)
From Coq Require Import ZArith Reals List Bool Lia Lra.
From Verif Require Import M_Base M_Mpi S_Mpi L_Base.
Import ListNotations.
Open Scope Z_scope.

Lemma k3 k : 0 <= k < 3 -> k = 0 \/ k = 1 \/ k = 2.
Proof. lia. Qed.
Ltac k3case H := apply k3 in H; destruct H as [->|[->| ->]].

Lemma at3_set3 v d a k : 0 <= d < 3 -> 0 <= k < 3 ->
  at3 (set3 v d a) k = if k =? d then a else at3 v k.
Proof. destruct v as [[x y] z]. intros Hd Hk. k3case Hd; k3case Hk; reflexivity. Qed.
Lemma at3_ext v w : (forall k, 0 <= k < 3 -> at3 v k = at3 w k) -> v = w.
Proof.
  intros H. pose proof (H 0 ltac:(lia)) as H0. pose proof (H 1 ltac:(lia)) as H1.
  pose proof (H 2 ltac:(lia)) as H2. destruct v as [[x y] z], w as [[x' y'] z'].
  cbn in *. congruence.
Qed.
Lemma set3_same v d : 0 <= d < 3 -> set3 v d (at3 v d) = v.
Proof. intros Hd. apply at3_ext. intros k Hk. rewrite at3_set3 by auto.
  destruct (Z.eqb_spec k d) as [->|]; reflexivity. Qed.
Lemma set3_set3 v d a b : 0 <= d < 3 -> set3 (set3 v d a) d b = set3 v d b.
Proof. intros Hd. apply at3_ext. intros k Hk. rewrite !at3_set3 by auto.
  destruct (Z.eqb_spec k d) as [->|]; reflexivity. Qed.

(** ** Ranks *)
Lemma rank_of_coords x y z px py : 0 < px -> 0 < py -> 0 <= x < px -> 0 <= y < py -> 0 <= z ->
  get_coordinates (x + y * px + z * px * py) (px, py, 0) = (x, y, z).
Proof.
  intros Hp Hq Hx Hy Hz. unfold get_coordinates, at3. cbn [Z.eqb Pos.eqb].
  assert (0 <= y * px) by nia. assert (0 <= z * px * py) by nia.
  rewrite Z.rem_mod_nonneg, (Z.quot_div_nonneg _ px), (Z.quot_div_nonneg _ (px * py)) by nia.
  assert (E : (x + y * px + z * px * py) / px = y + z * py).
  { symmetry. apply Z.div_unique with x; [lia|nia]. }
  rewrite E. rewrite Z.rem_mod_nonneg by nia.
  replace ((x + y * px + z * px * py) mod px) with x.
  2:{ apply Z.mod_unique with (y + z * py); [lia|nia]. }
  replace ((y + z * py) mod py) with y.
  2:{ apply Z.mod_unique with z; [lia|nia]. }
  replace ((x + y * px + z * px * py) / (px * py)) with z.
  2:{ apply Z.div_unique with (x + y * px); nia. }
  reflexivity.
Qed.

Lemma wrap_in x n : 0 <= x < n -> wrap x n = x.
Proof. intros H. unfold wrap. destruct (Z.ltb_spec x 0); [lia|].
  destruct (Z.ltb_spec (n - 1) x); lia. Qed.
Lemma wrap_mod x n : - n <= x < 2 * n -> wrap x n = x mod n.
Proof.
  intros H. unfold wrap. destruct (Z.ltb_spec x 0).
  - destruct (Z.ltb_spec (n - 1) (x + n)); [lia|]. apply Z.mod_unique with (-1); lia.
  - destruct (Z.ltb_spec (n - 1) x).
    + apply Z.mod_unique with 1; lia.
    + symmetry. apply Z.mod_small. lia.
Qed.

Lemma in_grid_iff c p : in_grid c p <->
  0 <= at3 c 0 < at3 p 0 /\ 0 <= at3 c 1 < at3 p 1 /\ 0 <= at3 c 2 < at3 p 2.
Proof.
  split.
  - intros H. pose proof (H 0 ltac:(lia)). pose proof (H 1 ltac:(lia)). pose proof (H 2 ltac:(lia)). lia.
  - intros H k Hk. k3case Hk; lia.
Qed.

Lemma coords_of_index c p : in_grid c p -> get_coordinates (get_rank_index c p) p = c.
Proof.
  intros H. apply in_grid_iff in H. unfold get_rank_index. rewrite !wrap_in by lia.
  destruct c as [[x y] z], p as [[px py] pz]. cbn in H |- *.
  apply (rank_of_coords x y z px py); lia.
Qed.

Lemma index_range c p : in_grid c p -> 0 <= get_rank_index c p < processes p.
Proof.
  intros H. apply in_grid_iff in H. unfold get_rank_index. rewrite !wrap_in by lia.
  unfold processes. destruct c as [[x y] z], p as [[px py] pz]. cbn in H |- *.
  assert (0 <= y * px <= (py - 1) * px) by nia.
  assert (0 <= z * (px * py) <= (pz - 1) * (px * py)) by nia. nia.
Qed.

Lemma index_of_coords r p : positive3 p -> 0 <= r < processes p ->
  in_grid (get_coordinates r p) p /\ get_rank_index (get_coordinates r p) p = r.
Proof.
  intros Hp Hr. pose proof (Hp 0 ltac:(lia)) as H0. pose proof (Hp 1 ltac:(lia)) as H1.
  pose proof (Hp 2 ltac:(lia)) as H2. unfold processes in Hr.
  destruct p as [[px py] pz]. cbn in H0, H1, H2, Hr.
  assert (G : in_grid (get_coordinates r (px, py, pz)) (px, py, pz)).
  { apply in_grid_iff. cbn.
    rewrite Z.rem_mod_nonneg, (Z.quot_div_nonneg _ px), (Z.quot_div_nonneg _ (px * py)) by nia.
    rewrite Z.rem_mod_nonneg; [|apply Z.div_pos; lia|lia].
    pose proof (Z.mod_pos_bound r px ltac:(lia)).
    pose proof (Z.mod_pos_bound (r / px) py ltac:(lia)).
    assert (0 <= r / (px * py) < pz); [|lia].
    split; [apply Z.div_pos; nia|]. apply Z.div_lt_upper_bound; nia. }
  split; [exact G|]. apply in_grid_iff in G. unfold get_rank_index. rewrite !wrap_in by lia.
  clear G. cbn.
  rewrite Z.rem_mod_nonneg, (Z.quot_div_nonneg _ px), (Z.quot_div_nonneg _ (px * py)) by nia.
  rewrite Z.rem_mod_nonneg; [|apply Z.div_pos; lia|lia].
  rewrite <- Z.div_div by lia.
  pose proof (Z.div_mod r px ltac:(lia)). pose proof (Z.div_mod (r / px) py ltac:(lia)).
  nia.
Qed.

Lemma rank_index_inj c c' p : in_grid c p -> in_grid c' p ->
  get_rank_index c p = get_rank_index c' p -> c = c'.
Proof.
  intros H H' E. rewrite <- (coords_of_index c p H), <- (coords_of_index c' p H'). now rewrite E.
Qed.

(** ** One side *)
Lemma side_split s : 0 <= s < 6 -> Z.quot s 2 = side_dir s /\ 0 <= side_dir s < 3 /\
  Z.rem s 2 = (if side_low s then 0 else 1) /\
  s = 2 * side_dir s + (if side_low s then 0 else 1).
Proof.
  intros H. assert (s = 0 \/ s = 1 \/ s = 2 \/ s = 3 \/ s = 4 \/ s = 5) as E by lia.
  destruct E as [->|[->|[->|[->|[->| ->]]]]]; vm_compute; intuition congruence.
Qed.

Lemma across_eq s : 0 <= s < 6 -> opposite_side s = across s /\ 0 <= across s < 6 /\
  side_dir (across s) = side_dir s /\ side_low (across s) = negb (side_low s) /\
  across (across s) = s.
Proof.
  intros H. assert (s = 0 \/ s = 1 \/ s = 2 \/ s = 3 \/ s = 4 \/ s = 5) as E by lia.
  destruct E as [->|[->|[->|[->|[->| ->]]]]]; vm_compute; intuition congruence.
Qed.

Definition nb_of (p : cell) (bc : Z -> btype) (pos : cell) (s : Z) : Z :=
  match beyond p bc pos s with Some q => get_rank_index q p | None => -1 end.
Definition bc_of (p : cell) (bc : Z -> btype) (pos : cell) (s : Z) : btype :=
  match beyond p bc pos s with Some _ => MPI_BC | None => bc s end.

Lemma beyond_in p bc pos s q : in_grid pos p -> 0 <= s < 6 -> beyond p bc pos s = Some q ->
  in_grid q p.
Proof.
  intros Hp Hs. destruct (side_split s Hs) as (_ & Hd & _ & _). unfold beyond.
  assert (G : forall a, 0 <= a < at3 p (side_dir s) -> in_grid (set3 pos (side_dir s) a) p).
  { intros a Ha k Hk. rewrite at3_set3 by auto.
    destruct (Z.eqb_spec k (side_dir s)) as [->|]; [lia|]. apply Hp. lia. }
  destruct (Z.leb_spec 0 (at3 pos (side_dir s) + step_of s));
    destruct (Z.ltb_spec (at3 pos (side_dir s) + step_of s) (at3 p (side_dir s))); cbn [andb].
  1: intros E; injection E as <-; apply G; lia.
  all: destruct (bc s); try discriminate; destruct (at3 p (side_dir s) =? 1); try discriminate;
    intros E; injection E as <-; apply G; apply Z.mod_pos_bound;
    pose proof (Hp (side_dir s) Hd); lia.
Qed.

Lemma side_neighbour_ok p pos bc s : in_grid pos p -> 0 <= s < 6 ->
  side_neighbour p pos bc s =
    Ok (nb_of p bc pos s, match beyond p bc pos s with Some _ => None | None => Some (bc s) end).
Proof.
  intros Hp Hs. destruct (side_split s Hs) as (Eq & Hd & Er & Es).
  pose proof (Hp (side_dir s) Hd) as Hq.
  assert (K : forall a, 0 <= a < at3 p (side_dir s) ->
      (let idx := get_rank_index (set3 pos (side_dir s) a) p in
       if idx <? 0 then Throw else Ok (idx, @None btype)) =
      Ok (get_rank_index (set3 pos (side_dir s) a) p, None)).
  { intros a Ha. cbv zeta. destruct (Z.ltb_spec (get_rank_index (set3 pos (side_dir s) a) p) 0); [|reflexivity].
    assert (in_grid (set3 pos (side_dir s) a) p) as G.
    { intros k Hk. rewrite at3_set3 by auto. destruct (Z.eqb_spec k (side_dir s)) as [->|]; [lia|]. apply Hp. lia. }
    apply index_range in G. lia. }
  unfold side_neighbour, nb_of. cbv zeta. rewrite Eq, Er. unfold beyond, step_of.
  destruct (side_low s); cbn [Z.eqb Pos.eqb b2z andb orb].
  - destruct (Z.eqb_spec (at3 pos (side_dir s)) 0) as [E0|N0]; cbn [andb orb].
    + rewrite E0. change (0 + (- (1) + 0)) with (-1). change (0 + -1) with (-1).
      change (0 <=? -1) with false. change (-1 <? 0) with true. cbn [andb].
      destruct (bc s); cbn [btype_eqb negb orb]; try reflexivity.
      destruct (Z.eqb_spec (at3 p (side_dir s)) 1) as [E1|N1]; [reflexivity|].
      rewrite Z.rem_mod_nonneg by lia.
      replace ((-1 + at3 p (side_dir s)) mod at3 p (side_dir s)) with ((-1) mod at3 p (side_dir s)).
      2:{ replace (-1 + at3 p (side_dir s)) with (-1 + 1 * at3 p (side_dir s)) by lia.
          now rewrite Z.mod_add by lia. }
      apply K. apply Z.mod_pos_bound. lia.
    + change (- (1) + 0) with (-1).
      rewrite (proj2 (Z.leb_le 0 (at3 pos (side_dir s) + -1))) by lia.
      rewrite (proj2 (Z.ltb_lt (at3 pos (side_dir s) + -1) (at3 p (side_dir s)))) by lia. cbn [andb].
      rewrite (proj2 (Z.ltb_ge (at3 pos (side_dir s) + -1) 0)) by lia.
      rewrite Z.rem_mod_nonneg, Z.mod_small by lia. apply K. lia.
  - destruct (Z.eqb_spec (at3 pos (side_dir s)) (at3 p (side_dir s) - 1)) as [E0|N0]; cbn [andb orb].
    + rewrite E0. replace (at3 p (side_dir s) - 1 + 1) with (at3 p (side_dir s)) by lia.
      rewrite Z.ltb_irrefl, andb_false_r.
      destruct (bc s); cbn [btype_eqb negb orb]; try reflexivity.
      destruct (Z.eqb_spec (at3 p (side_dir s)) 1) as [E1|N1]; [reflexivity|].
      replace (at3 p (side_dir s) - 1 + (- 0 + 1)) with (at3 p (side_dir s)) by lia.
      rewrite (proj2 (Z.ltb_ge (at3 p (side_dir s)) 0)) by lia.
      rewrite Z.rem_mod_nonneg by lia. apply K. apply Z.mod_pos_bound. lia.
    + replace (at3 pos (side_dir s) + (- 0 + 1)) with (at3 pos (side_dir s) + 1) by lia.
      rewrite (proj2 (Z.leb_le 0 (at3 pos (side_dir s) + 1))) by lia.
      rewrite (proj2 (Z.ltb_lt (at3 pos (side_dir s) + 1) (at3 p (side_dir s)))) by lia. cbn [andb].
      rewrite (proj2 (Z.ltb_ge (at3 pos (side_dir s) + 1) 0)) by lia.
      rewrite Z.rem_mod_nonneg, Z.mod_small by lia. apply K. lia.
Qed.

(** ** The whole decomposition *)
Lemma at3_per3 p n k : 0 <= k < 3 -> at3 (per3 p n) k = at3 n k / at3 p k.
Proof. intros H. k3case H; reflexivity. Qed.

Lemma active_range n : 1 <= active_dimension n <= 3.
Proof. unfold active_dimension. destruct (1 <? at3 n 2), (1 <? at3 n 1); lia. Qed.

Lemma check_ok p n : positive3 p -> (forall k, 0 <= k < 3 -> 0 <= at3 n k) -> divides3 p n ->
  for_ 0 3 (fun i (_ : unit) =>
         if at3 p i =? 0 then UB
         else if negb (Z.rem (at3 n i) (at3 p i) =? 0) then Throw
         else Ok tt) tt = Ok tt.
Proof.
  intros Hp Hn Hd.
  assert (E : forall i, 0 <= i < 3 -> (if at3 p i =? 0 then UB
         else if negb (Z.rem (at3 n i) (at3 p i) =? 0) then Throw else Ok tt) = Ok tt).
  { intros i Hi. pose proof (Hp i Hi). destruct (Z.eqb_spec (at3 p i) 0); [lia|].
    specialize (Hn i Hi). specialize (Hd i Hi). rewrite Z.rem_mod_nonneg by lia.
    apply Z.mod_divide in Hd; [|lia]. rewrite Hd. reflexivity. }
  unfold for_. change (zrange 0 3) with [0; 1; 2]. cbn [fold_res].
  rewrite (E 0), (E 1), (E 2) by lia. reflexivity.
Qed.

Lemma check_throw p n : positive3 p -> (forall k, 0 <= k < 3 -> 0 <= at3 n k) -> ~ divides3 p n ->
  for_ 0 3 (fun i (_ : unit) =>
         if at3 p i =? 0 then UB
         else if negb (Z.rem (at3 n i) (at3 p i) =? 0) then Throw
         else Ok tt) tt = Throw.
Proof.
  intros Hp Hn Hd.
  assert (E : forall i, 0 <= i < 3 -> (if at3 p i =? 0 then UB
         else if negb (Z.rem (at3 n i) (at3 p i) =? 0) then Throw else Ok tt) =
         if Z.rem (at3 n i) (at3 p i) =? 0 then Ok tt else Throw).
  { intros i Hi. pose proof (Hp i Hi). destruct (Z.eqb_spec (at3 p i) 0); [lia|].
    destruct (Z.rem (at3 n i) (at3 p i) =? 0); reflexivity. }
  unfold for_. change (zrange 0 3) with [0; 1; 2]. cbn [fold_res].
  rewrite (E 0), (E 1), (E 2) by lia.
  destruct (Z.eqb_spec (Z.rem (at3 n 0) (at3 p 0)) 0) as [E0|]; [cbn [bind]|reflexivity].
  destruct (Z.eqb_spec (Z.rem (at3 n 1) (at3 p 1)) 0) as [E1|]; [cbn [bind]|reflexivity].
  destruct (Z.eqb_spec (Z.rem (at3 n 2) (at3 p 2)) 0) as [E2|]; [|reflexivity].
  exfalso. apply Hd. intros k Hk. pose proof (Hp k Hk). pose proof (Hn k Hk).
  apply Z.mod_divide; [lia|]. rewrite <- Z.rem_mod_nonneg by lia. k3case Hk; assumption.
Qed.

(** Everything [decompose] returns. *)
Definition block_of (p : cell) (gr : grid) (r : Z) (junk : Z -> Z) (lg : grid) (nb : Z -> Z) : Prop :=
  let pos := get_coordinates r p in
  let act := active_dimension (gr_cells gr) in
  gr_cells lg = per3 p (gr_cells gr) /\
  (forall k, 0 <= k < 3 -> at3 (gr_start lg) k = at3 (gr_cells gr) k / at3 p k * at3 pos k) /\
  gr_global lg = gr_cells gr /\
  (forall k, gr_origin lg k = gr_len gr k * IZR (at3 (gr_start lg) k) + gr_origin gr k)%R /\
  (forall k, k < act ->
     (gr_top lg k = gr_origin lg k + gr_len gr k * IZR (at3 (gr_cells lg) k))%R) /\
  (forall k, gr_len lg k = gr_len gr k) /\
  (forall s, 0 <= s < 2 * act -> nb s = nb_of p (gr_bc gr) pos s /\
                                 gr_bc lg s = bc_of p (gr_bc gr) pos s) /\
  (forall s, 2 * act <= s -> nb s = junk s /\ gr_bc lg s = MPI_BC).

Lemma decompose_ok p gr r junk : positive3 p -> (forall k, 0 <= k < 3 -> 0 <= at3 (gr_cells gr) k) ->
  divides3 p (gr_cells gr) -> 0 <= r < processes p ->
  exists lg nb, decompose p gr r junk = Ok (lg, nb) /\ block_of p gr r junk lg nb.
Proof.
  intros Hp Hn Hd Hr. destruct (index_of_coords r p Hp Hr) as (Gp & _).
  pose proof (active_range (gr_cells gr)) as Ha. unfold decompose.
  rewrite (check_ok p (gr_cells gr) Hp Hn Hd). cbn [bind]. cbv zeta.
  assert (Eper : (Z.quot (at3 (gr_cells gr) 0) (at3 p 0), Z.quot (at3 (gr_cells gr) 1) (at3 p 1),
                  Z.quot (at3 (gr_cells gr) 2) (at3 p 2)) = per3 p (gr_cells gr)).
  { unfold per3. pose proof (Hp 0 ltac:(lia)). pose proof (Hp 1 ltac:(lia)). pose proof (Hp 2 ltac:(lia)).
    pose proof (Hn 0 ltac:(lia)). pose proof (Hn 1 ltac:(lia)). pose proof (Hn 2 ltac:(lia)).
    rewrite !Z.quot_div_nonneg by lia. reflexivity. }
  rewrite Eper. set (pos := get_coordinates r p) in *.
  destruct (for_inv (fun i (st : (Z -> Z) * (Z -> btype)) =>
     (forall s, 0 <= s < i -> fst st s = nb_of p (gr_bc gr) pos s /\ snd st s = bc_of p (gr_bc gr) pos s) /\
     (forall s, i <= s -> fst st s = junk s /\ snd st s = MPI_BC))
     0 (active_dimension (gr_cells gr) * 2)
     (fun side (st : (Z -> Z) * (Z -> btype)) =>
         nb <- side_neighbour p pos (gr_bc gr) side;;
         Ok (fun s => if s =? side then fst nb else fst st s,
             fun s => if s =? side then match snd nb with Some b => b | None => snd st s end
                      else snd st s)) (junk, fun _ => MPI_BC)) as (st & E & I1 & I2).
  - lia.
  - split; [intros s Hs; lia|]. intros s Hs. split; reflexivity.
  - intros i st Hi (I1 & I2). rewrite side_neighbour_ok by (auto; lia). cbn [bind fst snd].
    eexists. split; [reflexivity|]. cbn [fst snd]. split.
    + intros s Hs. destruct (Z.eqb_spec s i) as [->|].
      * split; [reflexivity|]. unfold bc_of. destruct (beyond p (gr_bc gr) pos i); [|reflexivity].
        destruct (I2 i ltac:(lia)); assumption.
      * apply I1. lia.
    + intros s Hs. destruct (Z.eqb_spec s i); [lia|]. apply I2. lia.
  - rewrite E. cbn [bind]. eexists. eexists. split; [reflexivity|].
    unfold block_of. cbn [gr_cells gr_start gr_global gr_origin gr_top gr_len gr_bc].
    split; [reflexivity|]. split.
    { intros k Hk. k3case Hk; reflexivity. }
    split; [reflexivity|]. split; [reflexivity|]. split.
    { intros k Hk. rewrite (proj2 (Z.ltb_lt _ _)) by lia. reflexivity. }
    split; [reflexivity|]. split.
    + intros s Hs. apply I1. lia.
    + intros s Hs. apply I2. lia.
Qed.

Lemma decompose_throw p gr r junk : positive3 p -> (forall k, 0 <= k < 3 -> 0 <= at3 (gr_cells gr) k) ->
  ~ divides3 p (gr_cells gr) -> decompose p gr r junk = Throw.
Proof.
  intros Hp Hn Hd. unfold decompose. rewrite (check_throw p (gr_cells gr) Hp Hn Hd). reflexivity.
Qed.

(** ** Neighbours *)
Lemma beyond_sym p bc pos s q : paired bc -> in_grid pos p -> 0 <= s < 6 ->
  beyond p bc pos s = Some q -> beyond p bc q (across s) = Some pos.
Proof.
  intros Hb Hp Hs E. pose proof (beyond_in p bc pos s q Hp Hs E) as Hq. revert E.
  destruct (side_split s Hs) as (_ & Hd & _ & Es). destruct (across_eq s Hs) as (_ & Ha & Ed & El & _).
  unfold beyond. rewrite Ed. unfold step_of. rewrite El. set (d := side_dir s) in *.
  assert (Hbb : bc s = PERIODIC -> bc (across s) = PERIODIC).
  { unfold across. destruct (side_low s); rewrite Es.
    - replace (2 * d + 0) with (2 * d) by lia. apply Hb. exact Hd.
    - replace (2 * d + 1 - 1) with (2 * d) by lia. apply Hb. exact Hd. }
  pose proof (Hp d Hd) as Pd. set (st := if side_low s then -1 else 1).
  assert (Est : (if negb (side_low s) then -1 else 1) = - st) by (unfold st; destruct (side_low s); reflexivity).
  rewrite Est. assert (st = -1 \/ st = 1) as Sst by (unfold st; destruct (side_low s); auto).
  clearbody st.
  assert (Fin : forall a, at3 q d = a -> q = set3 pos d a -> forall b, b = at3 pos d -> Some (set3 q d b) = Some pos).
  { intros a Ea -> b ->. rewrite set3_set3 by exact Hd. now rewrite set3_same. }
  destruct (Z.leb_spec 0 (at3 pos d + st)) as [L|L];
    destruct (Z.ltb_spec (at3 pos d + st) (at3 p d)) as [U|U]; cbn [andb].
  1:{ intros E. injection E as E. assert (at3 q d = at3 pos d + st) as Eq.
      { rewrite <- E, at3_set3 by auto. now rewrite Z.eqb_refl. }
      rewrite Eq. rewrite (proj2 (Z.leb_le _ _)) by lia. rewrite (proj2 (Z.ltb_lt _ _)) by lia.
      cbn [andb]. apply (Fin _ Eq); [now rewrite E|lia]. }
  all: destruct (bc s) eqn:Ebc; try discriminate;
    destruct (Z.eqb_spec (at3 p d) 1) as [|N1]; try discriminate;
    intros E; injection E as E;
    assert (at3 q d = (at3 pos d + st) mod at3 p d) as Eq
      by (rewrite <- E, at3_set3 by auto; now rewrite Z.eqb_refl);
    rewrite Eq; rewrite (Hbb eq_refl).
  - assert ((at3 pos d + st) mod at3 p d = 0) as E0.
    { symmetry. apply Z.mod_unique with 1; lia. }
    rewrite E0. rewrite (proj2 (Z.leb_gt 0 (0 + - st))) by lia. cbn [andb].
    apply (Fin _ eq_refl); [rewrite Eq; now rewrite E|].
    symmetry. apply Z.mod_unique with (-1); lia.
  - assert ((at3 pos d + st) mod at3 p d = at3 p d - 1) as ->.
    { symmetry. apply Z.mod_unique with (-1); lia. }
    rewrite (proj2 (Z.ltb_ge (at3 p d - 1 + - st) (at3 p d))) by lia. rewrite andb_false_r.
    apply (Fin _ eq_refl); [rewrite Eq; now rewrite E|].
    symmetry. apply Z.mod_unique with 1; lia.
  - lia.
Qed.
