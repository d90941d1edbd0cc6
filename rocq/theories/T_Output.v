(** C67, C68: what a NetCDF and an HDF5 file of a snapshot contain. *)
From Coq Require Import ZArith Reals List Bool Lia Lra Permutation.
From Verif Require Import M_Base M_Sim M_Memory M_Mpi M_Output L_Base L_Decomp L_Output
  S_Boundary S_Memory S_Mpi S_Output T_Memory T_Mpi.
Import ListNotations.
Open Scope Z_scope.

(** The processes [ranks] of a run on the processor grid [p], with their blocks
    and volumes, between them carrying the solution [u]. *)
Definition run_holds (dims g : Z) (p : cell) (gr : grid) (u : cell -> R)
    (vols : Z -> vol R) (blocks : Z -> grid) : Prop :=
  forall r, 0 <= r < processes p ->
    (exists junk nb, decompose p gr r junk = Ok (blocks r, nb)) /\
    holds dims g (vols r) (gr_cells (blocks r)) (fun c => u (shift (gr_start (blocks r)) c)).

Section Write.
Variables (dims g : Z) (p : cell) (gr : grid) (u : cell -> R) (vols : Z -> vol R) (blocks : Z -> grid).
Hypothesis Hdims : 1 <= dims <= 3.
Hypothesis Hg : 0 <= g.
Hypothesis Hdiv : divided p (gr_cells gr).
Hypothesis Hthick : thick p (gr_cells gr).
Hypothesis Hrun : run_holds dims g p gr u vols blocks.

Let n := gr_cells gr.
Let d := active_dimension n.

Lemma block_facts r : 0 <= r < processes p ->
  gr_cells (blocks r) = per3 p n /\ positive3 (per3 p n) /\
  active_dimension (per3 p n) = d /\
  (forall c, in_block (blocks r) c -> in_grid c n).
Proof.
  intros Hr. destruct Hdiv as (Hp & Hd & Hn). destruct (Hrun r Hr) as ((junk & nb & E) & _).
  assert (Hn0 : forall k, 0 <= k < 3 -> 0 <= at3 n k) by (intros k Hk; specialize (Hn k Hk); unfold n; lia).
  destruct (decompose_ok p gr r junk Hp Hn0 Hd Hr) as (lg & nb' & E' & B).
  rewrite E in E'. injection E' as <- <-. destruct B as (B1 & _).
  split; [exact B1|]. split.
  { intros k Hk. rewrite at3_per3 by exact Hk. specialize (Hn k Hk). specialize (Hp k Hk). specialize (Hd k Hk).
    destruct Hd as (q & Eq). unfold n. rewrite Eq. rewrite Z.div_mul by lia. rewrite Eq in Hn. nia. }
  split; [now apply active_block|].
  destruct (proj1 (C18_blocks_partition p gr Hp Hd Hn0) r junk Hr) as (lg & nb2 & E2 & H).
  rewrite E in E2. injection E2 as <- <-. exact H.
Qed.

Lemma d_range : 1 <= d <= 3.
Proof. apply active_range. Qed.

(** One process writes its block at the reversed indices, and nothing else. *)
Lemma one_block r f : 0 <= r < processes p -> fv_dims f = n -> reversed d n = n ->
  exists f', netcdf_mpi_memory f (vols r) (ghosts dims g) (blocks r) = Ok f' /\ fv_dims f' = n /\
    (forall c, in_block (blocks r) c -> fv_dat f' (reversed d c) = Some (u c)) /\
    (forall c, ~ in_block (blocks r) c -> fv_dat f' (reversed d c) = fv_dat f (reversed d c)).
Proof.
  intros Hr Ef Es. destruct (block_facts r Hr) as (Ec & Hpos & Ea & Hin).
  destruct (Hrun r Hr) as (_ & Hh). 
  destruct (inner_data_ok dims g (vols r) (gr_cells (blocks r)) _ Hdims Hg ltac:(rewrite Ec; exact Hpos) Hh) as (data & E & Sz & W).
  unfold netcdf_mpi_memory. rewrite E. cbn [bind].
  rewrite Ec in *. rewrite Ea. rewrite !file_axes_reversed by apply d_range.
  set (m := per3 p n) in *. set (s := gr_start (blocks r)) in *.
  assert (Box : forall c, in_slab (reversed d s) (reversed d m) (reversed d c) = true <-> in_block (blocks r) c).
  { intros c. rewrite slab_In. rewrite <- at3_reversed_range. unfold in_block. rewrite Ec. fold s m. tauto. }
  destruct (put_slab_ok f (reversed d s) (reversed d m) data) as (f' & E' & Ed & W').
  { intros k Hk. rewrite Ef, <- Es.
    assert (I1 : in_block (blocks r) s).
    { intros k' Hk'. fold s. rewrite Ec. specialize (Hpos k' Hk'). fold m in Hpos. lia. }
    assert (I2 : in_block (blocks r) (at3 s 0 + at3 m 0 - 1, at3 s 1 + at3 m 1 - 1, at3 s 2 + at3 m 2 - 1)).
    { intros k' Hk'. fold s. rewrite Ec. pose proof (Hpos k' Hk'). fold m. fold m in H.
      destruct (k3 k' Hk') as [-> | [-> | ->]]; cbn [at3 Z.eqb Pos.eqb]; lia. }
    apply Hin in I1, I2.
    pose proof (Hpos 0 ltac:(lia)). pose proof (Hpos 1 ltac:(lia)). pose proof (Hpos 2 ltac:(lia)).
    pose proof (I1 0 ltac:(lia)). pose proof (I1 1 ltac:(lia)). pose proof (I1 2 ltac:(lia)).
    pose proof (I2 0 ltac:(lia)) as J0. pose proof (I2 1 ltac:(lia)) as J1. pose proof (I2 2 ltac:(lia)) as J2.
    cbn [at3 Z.eqb Pos.eqb] in J0, J1, J2.
    clear - H H0 H1 H2 H3 H4 J0 J1 J2 Hk.
    destruct m as [[m1 m2] m3], s as [[s1 s2] s3], n as [[n1 n2] n3].
    cbn [at3 Z.eqb Pos.eqb] in *.
    destruct d as [|q|q]; try destruct q as [[?|?|]|[?|?|]|];
      destruct (k3 k Hk) as [-> | [-> | ->]]; cbn [reversed at3 Z.eqb Pos.eqb]; lia. }
  { rewrite Sz. clear. destruct m as [[m1 m2] m3].
    destruct d as [|q|q]; try destruct q as [[?|?|]|[?|?|]|]; cbn [reversed at3 Z.eqb Pos.eqb]; lia. }
  exists f'. split; [exact E'|]. split; [congruence|]. split.
  - intros c Hc. rewrite W'. rewrite (proj2 (Box c) Hc). f_equal.
    set (c0 := (at3 c 0 - at3 s 0, at3 c 1 - at3 s 1, at3 c 2 - at3 s 2) : cell).
    assert (Ec0 : c = shift s c0).
    { apply at3_ext. intros k Hk. unfold shift, c0.
      destruct (k3 k Hk) as [-> | [-> | ->]]; cbn [at3 Z.eqb Pos.eqb]; ring. }
    assert (G0 : in_grid c0 m).
    { intros k Hk. specialize (Hc k Hk). rewrite Ec in Hc. fold m in Hc. fold s in Hc.
      unfold c0. destruct (k3 k Hk) as [-> | [-> | ->]]; cbn [at3 Z.eqb Pos.eqb]; lia. }
    pose proof (reversed_position m s c0 ltac:(intros k Hk; specialize (Hpos k Hk); lia) G0) as P.
    cbv zeta in P. rewrite Ea in P. rewrite <- Ec0 in P. rewrite P.
    rewrite (W c0 G0). now rewrite <- Ec0.
  - intros c Hc. rewrite W'.
    destruct (in_slab _ _ _) eqn:Ei; [|reflexivity]. exfalso. apply Hc. now apply Box.
Qed.
End Write.

Lemma even_sided_iff n : (forall k, 0 <= k < 3 -> 1 <= at3 n k) ->
  even_sided n <-> reversed (active_dimension n) n = n.
Proof.
  intros Hn. unfold even_sided.
  destruct (active_ones n Hn) as [(-> & A & B) | [(-> & A & B) | (-> & A)]];
    destruct n as [[nx ny] nz]; cbn [reversed at3 Z.eqb Pos.eqb Z.sub Z.add Z.opp Z.pos_sub Pos.pred_double] in *.
  - tauto.
  - split; [intros ->; reflexivity|]. now intros [= H1 H2].
  - split; [intros ->; reflexivity|]. now intros [= H1 H2].
Qed.

Lemma reversed_in_grid n c : (forall k, 0 <= k < 3 -> 1 <= at3 n k) -> even_sided n ->
  in_grid c n -> in_grid (reversed (active_dimension n) c) n.
Proof.
  intros Hn He Hc. apply even_sided_iff in He; [|exact Hn].
  set (d := active_dimension n) in *.
  pose proof (proj1 (at3_reversed_range d (0, 0, 0) n c)) as H.
  assert (Hz : forall k, at3 (0, 0, 0) k = 0).
  { intros k. cbn [at3]. destruct (k =? 0), (k =? 1); reflexivity. }
  assert (Hz' : reversed d (0, 0, 0) = (0, 0, 0)).
  { clear. destruct d as [|q|q]; try reflexivity. destruct q as [[?|?|]|[?|?|]|]; reflexivity. }
  intros k Hk. rewrite Hz', He in H. specialize (H ltac:(intros k' Hk'; rewrite Hz; specialize (Hc k' Hk'); lia) k Hk).
  rewrite Hz in H. lia.
Qed.

(** On an even-sided grid the processes can write their blocks in any order: each
    cell ends up at its reversed index. *)
Theorem C67_parallel_file_partial : forall dims g p gr u vols blocks ranks,
  1 <= dims <= 3 -> 0 <= g -> divided p (gr_cells gr) -> thick p (gr_cells gr) ->
  even_sided (gr_cells gr) -> run_holds dims g p gr u vols blocks ->
  Permutation ranks (zrange 0 (processes p)) ->
  exists f, netcdf_mpi_write (gr_cells gr) vols (ghosts dims g) blocks ranks = Ok f /\
    stores f (gr_cells gr) (reversed (active_dimension (gr_cells gr))) u.
Proof.
  intros dims g p gr u vols blocks ranks Hd Hg Hdiv Ht He Hrun Hperm.
  pose proof Hdiv as (Hp & Hdv & Hn).
  pose proof (proj1 (even_sided_iff _ Hn) He) as Es.
  set (n := gr_cells gr) in *. set (d := active_dimension n) in *.
  assert (Hin : forall r, In r ranks <-> 0 <= r < processes p).
  { intros r. rewrite <- zrange_In. split; intros H;
      [exact (Permutation_in _ Hperm H) | exact (Permutation_in _ (Permutation_sym Hperm) H)]. }
  unfold netcdf_mpi_write.
  destruct (fold_res_inv (fun r f => netcdf_mpi_memory f (vols r) (ghosts dims g) (blocks r))
    (fun pre f => fv_dims f = n /\
       forall r c, In r pre -> in_block (blocks r) c -> fv_dat f (reversed d c) = Some (u c))
    ranks (new_fvar n)) as (f & E & Ed & W).
  - split; [reflexivity|]. intros r c [].
  - intros pre r post f El (Ed & W).
    assert (Hr : 0 <= r < processes p) by (apply Hin; rewrite El; apply in_or_app; right; now left).
    destruct (one_block dims g p gr u vols blocks Hd Hg Hdiv Ht Hrun r f Hr Ed Es) as (f' & E' & Ed' & W1 & W2).
    exists f'. split; [exact E'|]. split; [exact Ed'|]. intros r' c Hr' Hc.
    apply in_app_or in Hr'. destruct Hr' as [Hr' | [<- | []]]; [|now apply W1].
    assert (Dec : in_block (blocks r) c \/ ~ in_block (blocks r) c).
    { destruct (in_slab (gr_start (blocks r)) (gr_cells (blocks r)) c) eqn:Ei.
      - left. exact (proj1 (slab_In _ _ _) Ei).
      - right. intros Hb. pose proof (proj2 (slab_In _ _ _) Hb). congruence. }
    destruct Dec as [Y|N]; [now apply W1|]. exact (eq_trans (W2 c N) (W r' c Hr' Hc)).
  - exists f. split; [exact E|]. split; [exact Ed|]. intros c Hc. split; [now apply reversed_in_grid|].
    destruct (proj2 (C18_blocks_partition p gr Hp Hdv ltac:(intros k Hk; specialize (Hn k Hk); fold n; lia)) c Hc)
      as (r & (Hr & Hb) & _).
    destruct (Hrun r Hr) as ((junk & nb & Er) & _).
    apply (W r c); [now apply Hin|]. now apply (Hb junk _ nb).
Qed.

(** On any other grid the output is never written: some process asks for elements
    the variable does not have, whatever the processor grid. *)
Theorem C67_uneven_grid_throws : forall dims g p gr u vols blocks ranks,
  1 <= dims <= 3 -> 0 <= g -> divided p (gr_cells gr) -> thick p (gr_cells gr) ->
  ~ even_sided (gr_cells gr) -> run_holds dims g p gr u vols blocks ->
  Permutation ranks (zrange 0 (processes p)) ->
  netcdf_mpi_write (gr_cells gr) vols (ghosts dims g) blocks ranks = Throw.
Proof.
  intros dims g p gr u vols blocks ranks Hd Hg Hdiv Ht He Hrun Hperm.
  pose proof Hdiv as (Hp & Hdv & Hn).
  set (n := gr_cells gr) in *. set (d := active_dimension n) in *.
  assert (Hin : forall r, In r ranks <-> 0 <= r < processes p).
  { intros r. rewrite <- zrange_In. split; intros H;
      [exact (Permutation_in _ Hperm H) | exact (Permutation_in _ (Permutation_sym Hperm) H)]. }
  (* every process either writes or throws *)
  assert (Each : forall r f, 0 <= r < processes p -> fv_dims f = n ->
    netcdf_mpi_memory f (vols r) (ghosts dims g) (blocks r) = Throw \/
    exists f', netcdf_mpi_memory f (vols r) (ghosts dims g) (blocks r) = Ok f' /\ fv_dims f' = n).
  { intros r f Hr Ef. destruct (block_facts dims g p gr u vols blocks Hd Hdiv Ht Hrun r Hr) as (Ec & Hpos & Ea & _).
    destruct (Hrun r Hr) as (_ & Hh).
    destruct (inner_data_ok dims g (vols r) (gr_cells (blocks r)) _ Hd Hg ltac:(rewrite Ec; exact Hpos) Hh)
      as (data & E & Sz & _).
    unfold netcdf_mpi_memory. rewrite E. cbn [bind]. unfold put_slab.
    destruct (forallb _ _) eqn:F; [|left; reflexivity]. right. cbn [negb].
    rewrite Sz, Ec, Ea. fold n. rewrite !file_axes_reversed by apply active_range.
    destruct (Z.ltb_spec (at3 (per3 p n) 0 * at3 (per3 p n) 1 * at3 (per3 p n) 2)
      (at3 (reversed (active_dimension n) (per3 p n)) 0 * at3 (reversed (active_dimension n) (per3 p n)) 1
       * at3 (reversed (active_dimension n) (per3 p n)) 2)) as [L|L].
    - exfalso. revert L. clear. destruct (per3 p n) as [[m1 m2] m3].
      destruct (active_dimension n) as [|q|q]; try destruct q as [[?|?|]|[?|?|]|]; cbn [reversed at3 Z.eqb Pos.eqb]; lia.
    - eexists. split; [reflexivity|exact Ef]. }
  (* the last process throws *)
  set (last := (at3 p 0 - 1, at3 p 1 - 1, at3 p 2 - 1) : cell).
  assert (Gl : in_grid last p).
  { intros k Hk. pose proof (Hp k Hk). unfold last. destruct (k3 k Hk) as [-> | [-> | ->]]; cbn [at3 Z.eqb Pos.eqb]; lia. }
  set (rl := get_rank_index last p).
  pose proof (index_range last p Gl) as Hrl. fold rl in Hrl.
  assert (Last : forall f, fv_dims f = n -> netcdf_mpi_memory f (vols rl) (ghosts dims g) (blocks rl) = Throw).
  { intros f Ef. destruct (block_facts dims g p gr u vols blocks Hd Hdiv Ht Hrun rl Hrl) as (Ec & Hpos & Ea & _).
    destruct (Hrun rl Hrl) as ((junk & nb & Er) & Hh).
    assert (Hn0 : forall k, 0 <= k < 3 -> 0 <= at3 n k) by (intros k Hk; specialize (Hn k Hk); lia).
    destruct (decompose_ok p gr rl junk Hp Hn0 Hdv Hrl) as (lg & nb' & E' & B).
    rewrite Er in E'. injection E' as <- <-. destruct B as (B1 & B2 & _).
    assert (Ep : get_coordinates rl p = last) by now apply coords_of_index.
    assert (Top : forall k, 0 <= k < 3 -> at3 (gr_start (blocks rl)) k + at3 (per3 p n) k = at3 n k).
    { intros k Hk. rewrite B2, Ep by exact Hk. fold n. rewrite at3_per3 by exact Hk.
      specialize (Hdv k Hk). destruct Hdv as (q & Eq). specialize (Hp k Hk).
      rewrite Eq, Z.div_mul by lia.
      unfold last. destruct (k3 k Hk) as [-> | [-> | ->]]; cbn [at3 Z.eqb Pos.eqb]; ring. }
    destruct (inner_data_ok dims g (vols rl) (gr_cells (blocks rl)) _ Hd Hg ltac:(rewrite Ec; exact Hpos) Hh)
      as (data & E & _).
    unfold netcdf_mpi_memory. rewrite E. cbn [bind]. rewrite Ec, Ea. fold n. rewrite !file_axes_reversed by apply active_range.
    pose proof (Top 0 ltac:(lia)) as T0. pose proof (Top 1 ltac:(lia)) as T1. pose proof (Top 2 ltac:(lia)) as T2.
    assert (X : exists k, 0 <= k < 3 /\ at3 (fv_dims f) k <
      at3 (reversed (active_dimension n) (gr_start (blocks rl))) k + at3 (reversed (active_dimension n) (per3 p n)) k).
    { rewrite Ef. unfold even_sided in He. fold n in He. revert T0 T1 T2 He.
      destruct (active_ones n Hn) as [(-> & A & B) | [(-> & A & B) | (-> & A)]];
        destruct (per3 p n) as [[m1 m2] m3], (gr_start (blocks rl)) as [[s1 s2] s3], n as [[n1 n2] n3];
        cbn [reversed at3 Z.eqb Pos.eqb Z.sub Z.add Z.opp Z.pos_sub Pos.pred_double]; intros T0 T1 T2 He.
      - exfalso. apply He. reflexivity.
      - destruct (Z.lt_trichotomy n1 n2) as [L | [L | L]]; [|exfalso; apply He; exact L|].
        + exists 0. cbn [at3 Z.eqb Pos.eqb]. lia.
        + exists 1. cbn [at3 Z.eqb Pos.eqb]. lia.
      - destruct (Z.lt_trichotomy n1 n3) as [L | [L | L]]; [|exfalso; apply He; exact L|].
        + exists 0. cbn [at3 Z.eqb Pos.eqb]. lia.
        + exists 2. cbn [at3 Z.eqb Pos.eqb]. lia. }
    destruct X as (k & Hk & Hx). now apply put_slab_throw with k. }
  unfold netcdf_mpi_write.
  assert (K : forall l f, (forall r, In r l -> 0 <= r < processes p) -> In rl l -> fv_dims f = n ->
    fold_res (fun r f => netcdf_mpi_memory f (vols r) (ghosts dims g) (blocks r)) l f = Throw).
  { induction l as [|r l IH]; intros f Hl Hi Ef; [destruct Hi|]. cbn [fold_res].
    destruct Hi as [-> | Hi].
    - rewrite Last by exact Ef. reflexivity.
    - destruct (Each r f (Hl r (or_introl eq_refl)) Ef) as [-> | (f' & -> & Ef')]; [reflexivity|].
      cbn [bind]. apply IH; [|exact Hi|exact Ef']. intros r' Hr'. apply Hl. now right. }
  apply K; [|now apply Hin|reflexivity]. intros r Hr. now apply Hin.
Qed.

(** A whole volume written at once lies in the file with x running fastest. *)
Lemma whole_slab dims g v n u :
  1 <= dims <= 3 -> 0 <= g -> positive3 n -> holds dims g v n u ->
  exists data f, inner_data v (ghosts dims g) = Ok data /\ inner_size v (ghosts dims g) = n /\
    put_slab (new_fvar n) (0, 0, 0) n data = Ok f /\ dumps f n u.
Proof.
  intros Hd Hg Hn Hh. pose proof (holds_size _ _ _ _ _ Hd Hh) as Es.
  destruct (inner_data_ok dims g v n u Hd Hg Hn Hh) as (data & E & Sz & W).
  pose proof (Hn 0 ltac:(lia)) as N0. pose proof (Hn 1 ltac:(lia)) as N1. pose proof (Hn 2 ltac:(lia)) as N2.
  assert (Hz : forall k, at3 (0, 0, 0) k = 0).
  { intros k. cbn [at3]. destruct (k =? 0), (k =? 1); reflexivity. }
  destruct (put_slab_ok (new_fvar n) (0, 0, 0) n data) as (f & E' & Ed & W').
  { intros k Hk. rewrite Hz. cbn [new_fvar fv_dims]. specialize (Hn k Hk). lia. }
  { lia. }
  exists data, f. split; [exact E|]. split; [exact Es|]. split; [exact E'|].
  split; [exact Ed|]. split.
  - intros c c' Hc Hc' Ep. rewrite W'.
    destruct (in_slab (0, 0, 0) n c') eqn:Ei.
    + f_equal. rewrite <- (W c Hc). f_equal. rewrite !Hz. unfold position, position_minor_f in Ep. lia.
    + exfalso. assert (T : in_slab (0, 0, 0) n c' = true); [|congruence].
      apply slab_In. intros k Hk. rewrite Hz. specialize (Hc' k Hk). lia.
  - intros c Hc.
    pose proof (Hc 0 ltac:(lia)) as C0. pose proof (Hc 1 ltac:(lia)) as C1. pose proof (Hc 2 ltac:(lia)) as C2.
    set (q := position_minor_f n c).
    assert (Hq : 0 <= q < at3 n 0 * at3 n 1 * at3 n 2).
    { unfold q, position_minor_f.
      replace (at3 c 0 + at3 n 0 * (at3 c 1 + at3 n 1 * at3 c 2))
        with (at3 c 2 * at3 n 0 * at3 n 1 + at3 c 1 * at3 n 0 + at3 c 0) by ring.
      apply lin_bound; lia. }
    exists (q / (at3 n 1 * at3 n 2), (q / at3 n 2) mod at3 n 1, q mod at3 n 2).
    assert (N12 : 0 < at3 n 1 * at3 n 2) by nia.
    split.
    + intros k Hk. destruct (k3 k Hk) as [-> | [-> | ->]]; cbn [at3 Z.eqb Pos.eqb].
      * split; [apply Z.div_pos; lia|]. apply Z.div_lt_upper_bound; [lia|].
        replace (at3 n 1 * at3 n 2 * at3 n 0) with (at3 n 0 * at3 n 1 * at3 n 2) by ring. lia.
      * apply Z.mod_pos_bound. lia.
      * apply Z.mod_pos_bound. lia.
    + unfold position. cbn [at3 Z.eqb Pos.eqb].
      pose proof (Z.div_mod q (at3 n 2) ltac:(lia)) as A.
      pose proof (Z.div_mod (q / at3 n 2) (at3 n 1) ltac:(lia)) as B.
      rewrite (Z.mul_comm (at3 n 1) (at3 n 2)), <- Z.div_div by lia.
      rewrite (Z.mul_comm (q / at3 n 2 / at3 n 1)), <- B.
      rewrite (Z.mul_comm (q / at3 n 2)), <- A. reflexivity.
Qed.

(** The serial NetCDF writer stores the cells with x running fastest, for every
    grid. *)
Theorem C67_serial_file_partial : forall dims g v n u,
  1 <= dims <= 3 -> 0 <= g -> positive3 n -> holds dims g v n u ->
  exists f, netcdf_write v (ghosts dims g) = Ok f /\ dumps f n u.
Proof.
  intros dims g v n u Hd Hg Hn Hh. destruct (whole_slab dims g v n u Hd Hg Hn Hh) as (data & f & E & Es & E' & D).
  exists f. split; [|exact D]. unfold netcdf_write. rewrite E, Es. exact E'.
Qed.

Lemma dumps_reversed f n u : positive3 n -> even_sided n -> dumps f n u ->
  stores f n (reversed (active_dimension n)) u.
Proof.
  intros Hn He (Ed & W & _). split; [exact Ed|]. intros c Hc.
  pose proof (reversed_in_grid n c Hn He Hc) as Hc'. split; [exact Hc'|].
  apply W; [exact Hc|exact Hc'|].
  pose proof (reversed_position n (0, 0, 0) c Hn Hc) as P. cbv zeta in P.
  pose proof (proj1 (even_sided_iff n Hn) He) as Er. rewrite Er in P.
  assert (Es : shift (0, 0, 0) c = c).
  { apply at3_ext. intros k Hk. destruct (k3 k Hk) as [-> | [-> | ->]]; reflexivity. }
  rewrite Es in P.
  assert (Hz' : reversed (active_dimension n) (0, 0, 0) = (0, 0, 0)).
  { clear. destruct (active_dimension n) as [|q|q]; try reflexivity. destruct q as [[?|?|]|[?|?|]|]; reflexivity. }
  rewrite Hz' in P. cbn [at3 Z.eqb Pos.eqb] in P. unfold position, position_minor_f. rewrite !Z.sub_0_r in P.
  etransitivity; [exact P|]. ring.
Qed.

(** Where the parallel writer works at all, its file is the file of the serial
    writer, whatever the processor grid. *)
Theorem C67_same_file_partial : forall dims g p gr u vols blocks ranks v f f1,
  1 <= dims <= 3 -> 0 <= g -> divided p (gr_cells gr) -> thick p (gr_cells gr) ->
  run_holds dims g p gr u vols blocks -> Permutation ranks (zrange 0 (processes p)) ->
  holds dims g v (gr_cells gr) u ->
  netcdf_mpi_write (gr_cells gr) vols (ghosts dims g) blocks ranks = Ok f ->
  netcdf_write v (ghosts dims g) = Ok f1 ->
  fv_dims f = fv_dims f1 /\ forall c, in_grid c (fv_dims f1) -> fv_dat f c = fv_dat f1 c.
Proof.
  intros dims g p gr u vols blocks ranks v f f1 Hd Hg Hdiv Ht Hrun Hperm Hh E E1.
  pose proof Hdiv as (_ & _ & Hn).
  assert (He : even_sided (gr_cells gr)).
  { unfold even_sided. destruct (Z.eq_dec (at3 (gr_cells gr) 0) (at3 (gr_cells gr) (active_dimension (gr_cells gr) - 1)))
      as [Y|N]; [exact Y|].
    rewrite (C67_uneven_grid_throws dims g p gr u vols blocks ranks Hd Hg Hdiv Ht N Hrun Hperm) in E. discriminate. }
  destruct (C67_parallel_file_partial dims g p gr u vols blocks ranks Hd Hg Hdiv Ht He Hrun Hperm) as (f' & E' & Ed & W).
  rewrite E in E'. injection E' as <-.
  destruct (C67_serial_file_partial dims g v (gr_cells gr) u Hd Hg Hn Hh) as (f2 & E2 & D).
  rewrite E1 in E2. injection E2 as <-.
  destruct (dumps_reversed f1 _ u Hn He D) as (Ed1 & W1).
  split; [congruence|]. rewrite Ed1. intros c Hc.
  pose proof (reversed_in_grid _ c Hn He Hc) as Hc'.
  destruct (W _ Hc') as (_ & A). destruct (W1 _ Hc') as (_ & B). rewrite reversed_twice in A, B. congruence.
Qed.

(** HDF5, one process per sample: reading the dataset in the index order the file
    declares gives back the cells, for every grid. *)
Theorem C68_serial_file_partial : forall dims g v n u,
  1 <= dims <= 3 -> 0 <= g -> positive3 n -> holds dims g v n u ->
  exists f, hdf5_write v (ghosts dims g) = Ok f /\ dumps f n u.
Proof.
  intros dims g v n u Hd Hg Hn Hh. destruct (whole_slab dims g v n u Hd Hg Hn Hh) as (data & f & E & Es & E' & D).
  exists f. split; [|exact D]. unfold hdf5_write, hdf5_memory. rewrite E, Es. exact E'.
Qed.

(** A run for every solution: the hypotheses above can be met. *)
Definition volume_of (dims g : Z) (n : cell) (u : cell -> R) : vol R :=
  let gh := ghosts dims g in
  let nx := at3 n 0 + 2 * at3 gh 0 in
  let ny := at3 n 1 + 2 * at3 gh 1 in
  mkvol nx ny (at3 n 2 + 2 * at3 gh 2)
    (fun k => u (kth_cell (- at3 gh 0) (- at3 gh 1) (- at3 gh 2) nx ny k)).
Definition block_of_rank (p : cell) (gr : grid) (r : Z) : grid :=
  match decompose p gr r (fun _ => 0) with Ok (lg, _) => lg | _ => gr end.
Definition volume_of_rank (dims g : Z) (p : cell) (gr : grid) (u : cell -> R) (r : Z) : vol R :=
  let lg := block_of_rank p gr r in
  volume_of dims g (gr_cells lg) (fun c => u (shift (gr_start lg) c)).

Lemma volume_of_holds dims g n u : 1 <= dims <= 3 -> 0 <= g -> positive3 n -> holds dims g (volume_of dims g n u) n u.
Proof.
  intros Hd Hg Hn.
  pose proof (Hn 0 ltac:(lia)) as N0. pose proof (Hn 1 ltac:(lia)) as N1. pose proof (Hn 2 ltac:(lia)) as N2.
  split.
  { unfold has_extents, volume_of, ghosts. cbn [vnx vny vnz at3 Z.eqb Pos.eqb].
    split; [ring|]. split; [destruct (1 <? dims)|destruct (2 <? dims)]; ring. }
  intros c Hc.
  pose proof (Hc 0 ltac:(lia)) as C0. pose proof (Hc 1 ltac:(lia)) as C1. pose proof (Hc 2 ltac:(lia)) as C2.
  assert (Ei : ipos dims g c = (at3 c 0 + at3 (ghosts dims g) 0, at3 c 1 + at3 (ghosts dims g) 1, at3 c 2 + at3 (ghosts dims g) 2)).
  { destruct c as [[x y] z]. unfold ipos, ghosts. cbn [at3 Z.eqb Pos.eqb].
    f_equal; [f_equal|]; try destruct (1 <? dims); try destruct (2 <? dims); ring. }
  rewrite Ei. unfold volume_of.
  assert (G : forall k, 0 <= k < 3 -> 0 <= at3 (ghosts dims g) k).
  { intros k Hk. unfold ghosts. destruct (k3 k Hk) as [-> | [-> | ->]]; cbn [at3 Z.eqb Pos.eqb];
      destruct (1 <? dims), (2 <? dims); lia. }
  pose proof (G 0 ltac:(lia)). pose proof (G 1 ltac:(lia)). pose proof (G 2 ltac:(lia)).
  set (gh := ghosts dims g) in *. cbn [vget vnx vny vnz vdat]. f_equal.
  set (nx := at3 n 0 + 2 * at3 gh 0) in *. set (ny := at3 n 1 + 2 * at3 gh 1) in *.
  set (x := at3 c 0 + at3 gh 0). set (y := at3 c 1 + at3 gh 1). set (z := at3 c 2 + at3 gh 2).
  assert (Hx : 0 <= x < nx) by (unfold x, nx; lia). assert (Hy : 0 <= y < ny) by (unfold y, ny; lia).
  unfold kth_cell, index.
  replace (z * nx * ny + y * nx + x) with (x + (z * ny + y) * nx) by ring.
  rewrite Z.mod_add, Z.div_add by lia. rewrite <- Z.div_div by lia. rewrite Z.div_add by lia.
  rewrite (Z.div_small x nx), (Z.mod_small x nx) by lia.
  replace (0 + (z * ny + y)) with (y + z * ny) by ring.
  rewrite Z.mod_add, Z.div_add by lia. rewrite (Z.div_small y ny), (Z.mod_small y ny) by lia.
  transitivity (at3 c 0, at3 c 1, at3 c 2); [|symmetry; apply cell_eta].
  unfold x, y, z. f_equal; [f_equal|]; ring.
Qed.

Lemma run_of_holds dims g p gr u : 1 <= dims <= 3 -> 0 <= g -> divided p (gr_cells gr) ->
  run_holds dims g p gr u (volume_of_rank dims g p gr u) (block_of_rank p gr).
Proof.
  intros Hd Hg (Hp & Hdv & Hn) r Hr.
  assert (Hn0 : forall k, 0 <= k < 3 -> 0 <= at3 (gr_cells gr) k) by (intros k Hk; specialize (Hn k Hk); lia).
  destruct (decompose_ok p gr r (fun _ => 0) Hp Hn0 Hdv Hr) as (lg & nb & E & B1 & _).
  assert (Eb : block_of_rank p gr r = lg) by (unfold block_of_rank; now rewrite E).
  split.
  - exists (fun _ => 0), nb. now rewrite Eb.
  - unfold volume_of_rank. rewrite Eb. apply volume_of_holds; try assumption.
    rewrite B1. intros k Hk. rewrite at3_per3 by exact Hk.
    specialize (Hn k Hk). specialize (Hp k Hk). destruct (Hdv k Hk) as (q & Eq). rewrite Eq in *.
    rewrite Z.div_mul by lia. nia.
Qed.

(** HDF5 with several processes per sample: the dataset has the size of one block
    and ends up with the block of the process that writes last. *)
Theorem C68_last_block : forall dims g p gr u vols blocks pre r,
  1 <= dims <= 3 -> 0 <= g -> divided p (gr_cells gr) -> run_holds dims g p gr u vols blocks ->
  Permutation (pre ++ [r]) (zrange 0 (processes p)) ->
  exists f, hdf5_mpi_write vols (ghosts dims g) (pre ++ [r]) = Ok f /\
    dumps f (per3 p (gr_cells gr)) (fun c => u (shift (gr_start (blocks r)) c)).
Proof.
  intros dims g p gr u vols blocks pre r Hd Hg (Hp & Hdv & Hn) Hrun Hperm.
  set (m := per3 p (gr_cells gr)).
  assert (Hin : forall q, In q (pre ++ [r]) -> 0 <= q < processes p).
  { intros q Hq. apply zrange_In. exact (Permutation_in _ Hperm Hq). }
  assert (Hm : positive3 m).
  { intros k Hk. unfold m. rewrite at3_per3 by exact Hk.
    specialize (Hn k Hk). specialize (Hp k Hk). destruct (Hdv k Hk) as (q & Eq). rewrite Eq in *.
    rewrite Z.div_mul by lia. nia. }
  assert (Blk : forall q, 0 <= q < processes p -> gr_cells (blocks q) = m).
  { intros q Hq. destruct (Hrun q Hq) as ((junk & nb & E) & _).
    assert (Hn0 : forall k, 0 <= k < 3 -> 0 <= at3 (gr_cells gr) k) by (intros k Hk; specialize (Hn k Hk); lia).
    destruct (decompose_ok p gr q junk Hp Hn0 Hdv Hq) as (lg & nb' & E' & B1 & _).
    rewrite E in E'. injection E' as <- <-. exact B1. }
  assert (One : forall q f, 0 <= q < processes p -> fv_dims f = m ->
    exists f', hdf5_memory f (vols q) (ghosts dims g) = Ok f' /\
      dumps f' m (fun c => u (shift (gr_start (blocks q)) c))).
  { intros q f Hq Ef. destruct (Hrun q Hq) as (_ & Hh). rewrite (Blk q Hq) in Hh.
    destruct (whole_slab dims g (vols q) m _ Hd Hg Hm Hh) as (data & f0 & E & Es & E0 & D0).
    unfold hdf5_memory. rewrite E. cbn [bind]. rewrite Es.
    unfold put_slab in *. cbn [new_fvar fv_dims] in E0. rewrite Ef.
    destruct (negb _); [discriminate|]. destruct (_ <? _); [discriminate|].
    injection E0 as <-. eexists. split; [reflexivity|].
    destruct D0 as (_ & W & X). split; [reflexivity|]. split; [|exact X].
    intros c c' Hc Hc' Ep. specialize (W c c' Hc Hc' Ep). cbn [fv_dat new_fvar] in *.
    destruct (in_slab _ _ _); [exact W|discriminate]. }
  assert (K : forall l f, (forall q, In q (l ++ [r]) -> 0 <= q < processes p) -> fv_dims f = m ->
    exists f', fold_res (fun q f => hdf5_memory f (vols q) (ghosts dims g)) (l ++ [r]) f = Ok f' /\
      dumps f' m (fun c => u (shift (gr_start (blocks r)) c))).
  { induction l as [|q l IH]; intros f Hl Ef; cbn [app fold_res].
    - destruct (One r f (Hl r (or_introl eq_refl)) Ef) as (f' & -> & D). cbn [bind]. now exists f'.
    - destruct (One q f (Hl q (or_introl eq_refl)) Ef) as (f' & -> & D). cbn [bind].
      apply IH; [|apply D]. intros q' Hq'. apply Hl. now right. }
  unfold hdf5_mpi_write. destruct (pre ++ [r]) as [|r0 l] eqn:El; [destruct pre; discriminate|].
  assert (Hr0 : 0 <= r0 < processes p) by (apply Hin; now left).
  destruct (Hrun r0 Hr0) as (_ & Hh). rewrite (holds_size _ _ _ _ _ Hd Hh), (Blk r0 Hr0).
  rewrite <- El. apply K; [|reflexivity]. rewrite El. exact Hin.
Qed.

(** All blocks but one are lost, whichever order the processes write in. *)
Theorem C68_other_blocks_lost : forall dims g p gr u vols blocks ranks,
  1 <= dims <= 3 -> 0 <= g -> divided p (gr_cells gr) -> run_holds dims g p gr u vols blocks ->
  Permutation ranks (zrange 0 (processes p)) -> 1 < processes p ->
  (forall c c', in_grid c (gr_cells gr) -> in_grid c' (gr_cells gr) -> u c = u c' -> c = c') ->
  exists f r, hdf5_mpi_write vols (ghosts dims g) ranks = Ok f /\ 0 <= r < processes p /\
    forall q c, 0 <= q < processes p -> q <> r -> in_block (blocks q) c ->
      forall c', in_grid c' (fv_dims f) -> fv_dat f c' <> Some (u c).
Proof.
  intros dims g p gr u vols blocks ranks Hd Hg Hdiv Hrun Hperm Hone Hinj.
  destruct (exists_last (l := ranks)) as (pre & r & El).
  { intros ->. apply Permutation_length in Hperm. unfold zrange in Hperm. rewrite map_length, seq_length in Hperm.
    cbn [length] in Hperm. lia. }
  subst ranks.
  assert (Hr : 0 <= r < processes p).
  { apply zrange_In. apply (Permutation_in _ Hperm). apply in_or_app. right. now left. }
  destruct (C68_last_block dims g p gr u vols blocks pre r Hd Hg Hdiv Hrun Hperm) as (f & E & Ed & W & _).
  exists f, r. split; [exact E|]. split; [exact Hr|].
  pose proof Hdiv as (Hp & Hdv & Hn).
  assert (Hn0 : forall k, 0 <= k < 3 -> 0 <= at3 (gr_cells gr) k) by (intros k Hk; specialize (Hn k Hk); lia).
  intros q c Hq Nq Hc c' Hc' Ev. rewrite Ed in Hc'.
  set (m := per3 p (gr_cells gr)) in *.
  assert (Hm : positive3 m).
  { intros k Hk. specialize (Hc' k Hk). lia. }
  pose proof (Hm 0 ltac:(lia)) as M0. pose proof (Hm 1 ltac:(lia)) as M1. pose proof (Hm 2 ltac:(lia)) as M2.
  pose proof (Hc' 0 ltac:(lia)) as C0. pose proof (Hc' 1 ltac:(lia)) as C1. pose proof (Hc' 2 ltac:(lia)) as C2.
  set (t := position m c').
  assert (Ht : 0 <= t < at3 m 0 * at3 m 1 * at3 m 2).
  { unfold t, position.
    pose proof (lin_bound (at3 m 2) (at3 m 1) (at3 m 0) (at3 c' 2) (at3 c' 1) (at3 c' 0)) as B. 
    replace ((at3 c' 0 * at3 m 1 + at3 c' 1) * at3 m 2 + at3 c' 2)
      with (at3 c' 0 * at3 m 2 * at3 m 1 + at3 c' 1 * at3 m 2 + at3 c' 2) by ring. lia. }
  pose proof (kth_index 0 0 0 (at3 m 0) (at3 m 1) t ltac:(lia) ltac:(lia)) as Ek.
  pose proof (kth_in 0 0 0 (at3 m 0) (at3 m 1) (at3 m 2) t ltac:(lia) ltac:(lia) Ht) as Ik.
  destruct (kth_cell 0 0 0 (at3 m 0) (at3 m 1) t) as [[x y] z].
  assert (Hk : in_grid (x, y, z) m).
  { intros k Hk. destruct (k3 k Hk) as [-> | [-> | ->]]; cbn [at3 Z.eqb Pos.eqb]; lia. }
  rewrite (W (x, y, z) c' Hk Hc') in Ev.
  2:{ fold t. unfold position_minor_f. cbn [at3 Z.eqb Pos.eqb]. rewrite <- Ek. ring. }
  injection Ev as Ev.
  assert (In_ : forall q c, 0 <= q < processes p -> in_block (blocks q) c -> in_grid c (gr_cells gr)).
  { clear - Hrun Hp Hdv Hn0. intros q c Hq Hc. destruct (Hrun q Hq) as ((junk & nb & Er) & _).
    destruct (proj1 (C18_blocks_partition p gr Hp Hdv Hn0) q junk Hq) as (lg & nb2 & E2 & H).
    rewrite Er in E2. injection E2 as <- <-. now apply H. }
  assert (Hs : in_block (blocks r) (shift (gr_start (blocks r)) (x, y, z))).
  { destruct (Hrun r Hr) as ((junk & nb & Er) & _).
    destruct (decompose_ok p gr r junk Hp Hn0 Hdv Hr) as (lg & nb' & E' & B1 & _).
    rewrite Er in E'. injection E' as <- <-. intros k Hk'. rewrite B1. fold m. specialize (Hk k Hk').
    unfold shift. destruct (k3 k Hk') as [-> | [-> | ->]]; cbn [at3 Z.eqb Pos.eqb] in *; lia. }
  apply Hinj in Ev; [|exact (In_ r _ Hr Hs)|exact (In_ q _ Hq Hc)].
  assert (Hb : in_block (blocks r) c) by now rewrite <- Ev.
  pose proof (In_ q c Hq Hc) as Hg'.
  destruct (proj2 (C18_blocks_partition p gr Hp Hdv Hn0) c Hg') as (r0 & _ & Uq).
  apply Nq. transitivity r0.
  - symmetry. apply Uq. split; [exact Hq|]. intros junk lg nb Eq.
    destruct (Hrun q Hq) as ((junk' & nb' & Eq') & _).
    destruct (decompose_ok p gr q junk Hp Hn0 Hdv Hq) as (l1 & n1 & F1 & A1 & A2 & _).
    destruct (decompose_ok p gr q junk' Hp Hn0 Hdv Hq) as (l2 & n2 & F2 & B1 & B2 & _).
    rewrite Eq in F1. injection F1 as <- <-. rewrite Eq' in F2. injection F2 as <- <-.
    intros k Hk'. specialize (Hc k Hk'). rewrite B2, B1 in Hc by exact Hk'. rewrite A2, A1 by exact Hk'. exact Hc.
  - apply Uq. split; [exact Hr|]. intros junk lg nb Eq.
    destruct (Hrun r Hr) as ((junk' & nb' & Eq') & _).
    destruct (decompose_ok p gr r junk Hp Hn0 Hdv Hr) as (l1 & n1 & F1 & A1 & A2 & _).
    destruct (decompose_ok p gr r junk' Hp Hn0 Hdv Hr) as (l2 & n2 & F2 & B1 & B2 & _).
    rewrite Eq in F1. injection F1 as <- <-. rewrite Eq' in F2. injection F2 as <- <-.
    intros k Hk'. specialize (Hb k Hk'). rewrite B2, B1 in Hb by exact Hk'. rewrite A2, A1 by exact Hk'. exact Hb.
Qed.

(** The claim for all grids is false: a run on one process with 4 x 2 cells cannot
    write its NetCDF file. *)
Theorem C67_every_grid_refuted : exists p gr u vols blocks,
  divided p (gr_cells gr) /\ thick p (gr_cells gr) /\ run_holds 2 1 p gr u vols blocks /\
  netcdf_mpi_write (gr_cells gr) vols (ghosts 2 1) blocks (zrange 0 (processes p)) = Throw.
Proof.
  pose (gr := ex_grid (4, 2, 1) (fun _ => PERIODIC)). pose (u := fun c : cell => IZR (at3 c 0 + 4 * at3 c 1)).
  assert (Hdiv : divided (1, 1, 1) (gr_cells gr)).
  { split; [|split]; intros k Hk; destruct (k3 k Hk) as [-> | [-> | ->]]; cbn; try lia;
      [exists 4|exists 2|exists 1]; reflexivity. }
  assert (Ht : thick (1, 1, 1) (gr_cells gr)).
  { intros k Hk H. destruct (k3 k Hk) as [-> | [-> | ->]]; vm_compute in H |- *; congruence. }
  exists (1, 1, 1), gr, u, (volume_of_rank 2 1 (1, 1, 1) gr u), (block_of_rank (1, 1, 1) gr).
  split; [exact Hdiv|]. split; [exact Ht|].
  pose proof (run_of_holds 2 1 (1, 1, 1) gr u ltac:(lia) ltac:(lia) Hdiv) as Hrun.
  split; [exact Hrun|].
  apply (C67_uneven_grid_throws 2 1 (1, 1, 1) gr u); try assumption; try lia.
  - intros H. vm_compute in H. discriminate.
  - apply Permutation_refl.
Qed.

(** Where a file is written, its dimensions "x" and "y" are interchanged. *)
Theorem C67_axis_names_refuted : exists p gr u vols blocks f,
  divided p (gr_cells gr) /\ thick p (gr_cells gr) /\ run_holds 2 1 p gr u vols blocks /\
  netcdf_mpi_write (gr_cells gr) vols (ghosts 2 1) blocks (zrange 0 (processes p)) = Ok f /\
  in_grid (0, 1, 0) (gr_cells gr) /\ fv_dat f (0, 1, 0) <> Some (u (0, 1, 0)).
Proof.
  pose (gr := ex_grid (4, 4, 1) (fun _ => PERIODIC)). pose (u := fun c : cell => IZR (at3 c 0 + 4 * at3 c 1)).
  assert (Hdiv : divided (2, 2, 1) (gr_cells gr)).
  { split; [|split]; intros k Hk; destruct (k3 k Hk) as [-> | [-> | ->]]; cbn; try lia;
      [exists 2|exists 2|exists 1]; reflexivity. }
  assert (Ht : thick (2, 2, 1) (gr_cells gr)).
  { intros k Hk H. destruct (k3 k Hk) as [-> | [-> | ->]]; vm_compute in H |- *; congruence. }
  pose proof (run_of_holds 2 1 (2, 2, 1) gr u ltac:(lia) ltac:(lia) Hdiv) as Hrun.
  destruct (C67_parallel_file_partial 2 1 (2, 2, 1) gr u (volume_of_rank 2 1 (2, 2, 1) gr u) (block_of_rank (2, 2, 1) gr)
    (zrange 0 (processes (2, 2, 1)))) as (f & E & _ & W); try assumption; try lia.
  { reflexivity. } { apply Permutation_refl. }
  exists (2, 2, 1), gr, u, (volume_of_rank 2 1 (2, 2, 1) gr u), (block_of_rank (2, 2, 1) gr), f.
  split; [exact Hdiv|]. split; [exact Ht|]. split; [exact Hrun|]. split; [exact E|].
  assert (G : forall x y, 0 <= x < 4 -> 0 <= y < 4 -> in_grid (x, y, 0) (gr_cells gr)).
  { intros x y Hx Hy k Hk. destruct (k3 k Hk) as [-> | [-> | ->]]; cbn; lia. }
  split; [apply G; lia|].
  destruct (W (1, 0, 0) (G 1 0 ltac:(lia) ltac:(lia))) as (_ & V). cbn [reversed] in V.
  change (reversed (active_dimension (gr_cells gr)) (1, 0, 0)) with ((0, 1, 0) : cell) in V. rewrite V.
  unfold u. intros H. injection H as H. apply eq_IZR in H. vm_compute in H. discriminate.
Qed.

(** The file depends on the number of processes: cut into blocks one cell thick the
    same 2 x 2 cells are stored the other way round. *)
Theorem C67_thin_blocks_refuted : exists gr u p p' f f',
  divided p (gr_cells gr) /\ divided p' (gr_cells gr) /\
  netcdf_mpi_write (gr_cells gr) (volume_of_rank 2 1 p gr u) (ghosts 2 1) (block_of_rank p gr)
    (zrange 0 (processes p)) = Ok f /\
  netcdf_mpi_write (gr_cells gr) (volume_of_rank 2 1 p' gr u) (ghosts 2 1) (block_of_rank p' gr)
    (zrange 0 (processes p')) = Ok f' /\
  in_grid (0, 1, 0) (gr_cells gr) /\ fv_dat f (0, 1, 0) <> fv_dat f' (0, 1, 0).
Proof.
  pose (gr := ex_grid (2, 2, 1) (fun _ => PERIODIC)). pose (u := fun c : cell => IZR (at3 c 0 + 2 * at3 c 1)).
  exists gr, u, (1, 1, 1), (1, 2, 1).
  eexists. eexists.
  split. { split; [|split]; intros k Hk; destruct (k3 k Hk) as [-> | [-> | ->]]; cbn; try lia;
      [exists 2|exists 2|exists 1]; reflexivity. }
  split. { split; [|split]; intros k Hk; destruct (k3 k Hk) as [-> | [-> | ->]]; cbn; try lia;
      [exists 2|exists 1|exists 1]; reflexivity. }
  split; [reflexivity|]. split; [reflexivity|].
  split. { intros k Hk. destruct (k3 k Hk) as [-> | [-> | ->]]; cbn; lia. }
  lazy -[IZR]. intros H. injection H as H. apply eq_IZR in H. discriminate.
Qed.

(** With two processes per sample half of the solution is missing from the HDF5
    file. *)
Theorem C68_decomposed_sample_refuted : exists p gr u vols blocks,
  divided p (gr_cells gr) /\ run_holds 1 1 p gr u vols blocks /\
  forall ranks, Permutation ranks (zrange 0 (processes p)) ->
  exists f c, hdf5_mpi_write vols (ghosts 1 1) ranks = Ok f /\ in_grid c (gr_cells gr) /\
    forall c', in_grid c' (fv_dims f) -> fv_dat f c' <> Some (u c).
Proof.
  pose (gr := ex_grid (4, 1, 1) (fun _ => PERIODIC)). pose (u := fun c : cell => IZR (at3 c 0)).
  assert (Hdiv : divided (2, 1, 1) (gr_cells gr)).
  { split; [|split]; intros k Hk; destruct (k3 k Hk) as [-> | [-> | ->]]; cbn; try lia;
      [exists 2|exists 1|exists 1]; reflexivity. }
  pose proof (run_of_holds 1 1 (2, 1, 1) gr u ltac:(lia) ltac:(lia) Hdiv) as Hrun.
  exists (2, 1, 1), gr, u, (volume_of_rank 1 1 (2, 1, 1) gr u), (block_of_rank (2, 1, 1) gr).
  split; [exact Hdiv|]. split; [exact Hrun|]. intros ranks Hperm.
  destruct (C68_other_blocks_lost 1 1 (2, 1, 1) gr u _ _ ranks ltac:(lia) ltac:(lia) Hdiv Hrun Hperm)
    as (f & r & E & Hr & L).
  { reflexivity. }
  { intros c c' Hc Hc' Ev. apply eq_IZR in Ev. apply at3_ext. intros k Hk.
    pose proof (Hc k Hk) as A. pose proof (Hc' k Hk) as B.
    destruct (k3 k Hk) as [-> | [-> | ->]]; [exact Ev| |]; cbn in A, B |- *; cbn [at3 Z.eqb Pos.eqb gr gr_cells ex_grid] in *; lia. }
  assert (D : r = 0 \/ r = 1) by (change (processes (2, 1, 1)) with 2 in Hr; lia).
  destruct D as [-> | ->].
  - exists f, (2, 0, 0). split; [exact E|]. split.
    + intros k Hk. destruct (k3 k Hk) as [-> | [-> | ->]]; cbn; lia.
    + apply (L 1); [vm_compute; split; congruence|lia|]. intros k Hk. destruct (k3 k Hk) as [-> | [-> | ->]]; vm_compute; split; congruence.
  - exists f, (0, 0, 0). split; [exact E|]. split.
    + intros k Hk. destruct (k3 k Hk) as [-> | [-> | ->]]; cbn; lia.
    + apply (L 0); [vm_compute; split; congruence|lia|]. intros k Hk. destruct (k3 k Hk) as [-> | [-> | ->]]; vm_compute; split; congruence.
Qed.

Print Assumptions C67_parallel_file_partial.
Print Assumptions C67_uneven_grid_throws.
Print Assumptions C67_serial_file_partial.
Print Assumptions C67_same_file_partial.
Print Assumptions C67_every_grid_refuted.
Print Assumptions C67_axis_names_refuted.
Print Assumptions C67_thin_blocks_refuted.
Print Assumptions C68_serial_file_partial.
Print Assumptions C68_last_block.
Print Assumptions C68_other_blocks_lost.
Print Assumptions C68_decomposed_sample_refuted.

(** Four processes write 4 x 4 cells in the order 2, 0, 3, 1: cell (3, 1) is found
    at [1][3]. *)
Example C67_example : exists f,
  let gr := ex_grid (4, 4, 1) (fun _ => NEUMANN) in
  let u := fun c : cell => IZR (at3 c 0 + 4 * at3 c 1) in
  netcdf_mpi_write (4, 4, 1) (volume_of_rank 2 1 (2, 2, 1) gr u) (ghosts 2 1) (block_of_rank (2, 2, 1) gr) [2; 0; 3; 1] = Ok f /\
  fv_dat f (1, 3, 0) = Some (IZR 7).
Proof. eexists. cbv zeta. split; reflexivity. Qed.

(** The serial writer on 3 x 2 cells: the elements of the file in order. *)
Example C67_serial_example : exists f,
  netcdf_write (volume_of 2 2 (3, 2, 1) (fun c => IZR (at3 c 0 + 3 * at3 c 1))) (ghosts 2 2) = Ok f /\
  map (fv_dat f) [(0, 0, 0); (0, 1, 0); (1, 0, 0); (1, 1, 0); (2, 0, 0); (2, 1, 0)]
  = map (fun k => Some (IZR k)) [0; 1; 2; 3; 4; 5].
Proof. eexists. split; reflexivity. Qed.
