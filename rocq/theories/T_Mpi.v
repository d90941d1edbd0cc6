(** C18, C19, C20 and C57: decomposition and cell exchange. *)
From Coq Require Import ZArith Reals List Bool Lia Lra.
From Verif Require Import M_Base M_Mpi S_Mpi L_Base L_Decomp L_Exchange L_Match.
Import ListNotations.
Open Scope Z_scope.

(** ** C18 *)

(** Ranks and positions in the processor grid correspond one to one. *)
Theorem C18_ranks_and_coordinates :
  forall p, positive3 p ->
  (forall r, 0 <= r < processes p ->
     in_grid (get_coordinates r p) p /\ get_rank_index (get_coordinates r p) p = r) /\
  (forall c, in_grid c p ->
     0 <= get_rank_index c p < processes p /\ get_coordinates (get_rank_index c p) p = c).
Proof.
  intros p Hp. split.
  - intros r Hr. now apply index_of_coords.
  - intros c Hc. split; [now apply index_range|now apply coords_of_index].
Qed.

(** Positions one step outside wrap around. *)
Theorem C18_rank_index_wraps :
  forall p c, positive3 p -> (forall k, 0 <= k < 3 -> -1 <= at3 c k <= at3 p k) ->
  get_rank_index c p =
  get_rank_index (at3 c 0 mod at3 p 0, at3 c 1 mod at3 p 1, at3 c 2 mod at3 p 2) p.
Proof.
  intros p c Hp Hc.
  assert (K : forall k, 0 <= k < 3 -> wrap (at3 c k) (at3 p k) = wrap (at3 c k mod at3 p k) (at3 p k)).
  { intros k Hk. pose proof (Hp k Hk). pose proof (Hc k Hk). rewrite wrap_mod by lia.
    rewrite wrap_in; [reflexivity|]. apply Z.mod_pos_bound. lia. }
  unfold get_rank_index. rewrite (K 0), (K 1), (K 2) by lia. reflexivity.
Qed.

(** Every process gets a block; each cell of the global grid lies in exactly one
    of them, and no block reaches outside. *)
Theorem C18_blocks_partition :
  forall p gr, positive3 p -> divides3 p (gr_cells gr) ->
  (forall k, 0 <= k < 3 -> 0 <= at3 (gr_cells gr) k) ->
  (forall r junk, 0 <= r < processes p -> exists lg nb, decompose p gr r junk = Ok (lg, nb) /\
     forall c, in_block lg c -> in_grid c (gr_cells gr)) /\
  (forall c, in_grid c (gr_cells gr) -> exists! r, 0 <= r < processes p /\
     forall junk lg nb, decompose p gr r junk = Ok (lg, nb) -> in_block lg c).
Proof.
  intros p gr Hp Hd Hn.
  assert (Div : forall k, 0 <= k < 3 -> at3 (gr_cells gr) k = at3 p k * (at3 (gr_cells gr) k / at3 p k)).
  { intros k Hk. pose proof (Hp k Hk). apply Z_div_exact_full_2; [lia|].
    apply Z.mod_divide; [lia|]. now apply Hd. }
  split.
  - intros r junk Hr. destruct (decompose_ok p gr r junk Hp Hn Hd Hr) as (lg & nb & E & B).
    exists lg, nb. split; [exact E|]. intros c Hc k Hk. destruct B as (B1 & B2 & _).
    specialize (Hc k Hk). rewrite B2, B1, at3_per3 in Hc by exact Hk.
    destruct (index_of_coords r p Hp Hr) as (G & _). specialize (G k Hk).
    specialize (Div k Hk). pose proof (Hp k Hk). pose proof (Hn k Hk).
    set (q := at3 (gr_cells gr) k / at3 p k) in *. set (x := at3 (get_coordinates r p) k) in *.
    assert (0 <= q) by (apply Z.div_pos; lia). nia.
  - intros c Hc.
    assert (Q : forall k, 0 <= k < 3 -> 0 < at3 (gr_cells gr) k / at3 p k).
    { intros k Hk. specialize (Hc k Hk). specialize (Div k Hk). pose proof (Hp k Hk). nia. }
    set (pos := (at3 c 0 / (at3 (gr_cells gr) 0 / at3 p 0), at3 c 1 / (at3 (gr_cells gr) 1 / at3 p 1),
                 at3 c 2 / (at3 (gr_cells gr) 2 / at3 p 2)) : cell).
    assert (Epos : forall k, 0 <= k < 3 -> at3 pos k = at3 c k / (at3 (gr_cells gr) k / at3 p k)).
    { intros k Hk. k3case Hk; reflexivity. }
    assert (Gpos : in_grid pos p).
    { intros k Hk. rewrite Epos by exact Hk. specialize (Q k Hk). specialize (Hc k Hk). specialize (Div k Hk).
      split; [apply Z.div_pos; lia|]. apply Z.div_lt_upper_bound; [lia|]. rewrite Z.mul_comm. lia. }
    assert (In_iff : forall r junk lg nb, 0 <= r < processes p -> decompose p gr r junk = Ok (lg, nb) ->
       (in_block lg c <-> get_coordinates r p = pos)).
    { intros r junk lg nb Hr E. destruct (decompose_ok p gr r junk Hp Hn Hd Hr) as (lg' & nb' & E' & B).
      rewrite E in E'. injection E' as <- <-. destruct B as (B1 & B2 & _). split.
      - intros Hb. apply at3_ext. intros k Hk. rewrite Epos by exact Hk. specialize (Hb k Hk).
        rewrite B2, B1, at3_per3 in Hb by exact Hk. specialize (Q k Hk).
        apply Z.div_unique with (at3 c k - at3 (gr_cells gr) k / at3 p k * at3 (get_coordinates r p) k); lia.
      - intros Ep k Hk. rewrite B2, B1, at3_per3, Ep, Epos by exact Hk. specialize (Q k Hk).
        pose proof (Z.div_mod (at3 c k) (at3 (gr_cells gr) k / at3 p k) ltac:(lia)).
        pose proof (Z.mod_pos_bound (at3 c k) (at3 (gr_cells gr) k / at3 p k) ltac:(lia)). lia. }
    exists (get_rank_index pos p). split.
    + pose proof (index_range pos p Gpos) as Hr. split; [exact Hr|].
      intros junk lg nb E. apply (In_iff _ junk lg nb Hr E). now apply coords_of_index.
    + intros r (Hr & H). destruct (decompose_ok p gr r (fun _ => 0) Hp Hn Hd Hr) as (lg & nb & E & _).
      specialize (H (fun _ => 0) lg nb E). apply (In_iff r (fun _ => 0) lg nb Hr E) in H.
      rewrite <- H. now apply index_of_coords.
Qed.

(** A processor grid that does not divide the cell counts is rejected. *)
Theorem C18_rejects_uneven :
  forall p gr r junk, positive3 p -> (forall k, 0 <= k < 3 -> 0 <= at3 (gr_cells gr) k) ->
  ~ divides3 p (gr_cells gr) -> decompose p gr r junk = Throw.
Proof. exact decompose_throw. Qed.

(** The neighbour on a side is the process one step beyond it; a side without
    neighbour keeps the boundary condition of the grid, the others are left to
    the exchange. *)
Theorem C18_neighbours :
  forall p gr r junk lg nb s, positive3 p -> divides3 p (gr_cells gr) ->
  (forall k, 0 <= k < 3 -> 0 <= at3 (gr_cells gr) k) -> 0 <= r < processes p ->
  decompose p gr r junk = Ok (lg, nb) -> 0 <= s < 2 * active_dimension (gr_cells gr) ->
  match beyond p (gr_bc gr) (get_coordinates r p) s with
  | Some q => in_grid q p /\ nb s = get_rank_index q p /\ gr_bc lg s = MPI_BC
  | None => nb s = -1 /\ gr_bc lg s = gr_bc gr s
  end.
Proof.
  intros p gr r junk lg nb s Hp Hd Hn Hr E Hs.
  destruct (decompose_ok p gr r junk Hp Hn Hd Hr) as (lg' & nb' & E' & B).
  rewrite E in E'. injection E' as <- <-. destruct B as (_ & _ & _ & _ & _ & _ & B & _).
  specialize (B s Hs). unfold nb_of, bc_of in B. pose proof (active_range (gr_cells gr)).
  destruct (index_of_coords r p Hp Hr) as (G & _).
  destruct (beyond p (gr_bc gr) (get_coordinates r p) s) as [q|] eqn:Eb; [|exact B].
  split; [|exact B]. apply (beyond_in p (gr_bc gr) (get_coordinates r p) s q G); [lia|exact Eb].
Qed.

(** If [b] is the neighbour of [a] on a side, [a] is the neighbour of [b] on the
    opposite side. *)
Theorem C18_neighbours_symmetric :
  forall p gr a b ja jb la lb na nb s,
  positive3 p -> divides3 p (gr_cells gr) ->
  (forall k, 0 <= k < 3 -> 0 <= at3 (gr_cells gr) k) -> paired (gr_bc gr) ->
  0 <= a < processes p -> 0 <= b < processes p ->
  decompose p gr a ja = Ok (la, na) -> decompose p gr b jb = Ok (lb, nb) ->
  0 <= s < 2 * active_dimension (gr_cells gr) ->
  na s = b -> nb (across s) = a.
Proof.
  intros p gr a b ja jb la lb na nb s Hp Hd Hn Hbc Ha Hb Ea Eb Hs E.
  pose proof (C18_neighbours p gr a ja la na s Hp Hd Hn Ha Ea Hs) as A1.
  pose proof (active_range (gr_cells gr)) as R1.
  destruct (index_of_coords a p Hp Ha) as (Ga & Ea').
  assert (H6 : 0 <= s < 6) by lia.
  destruct (beyond p (gr_bc gr) (get_coordinates a p) s) as [q|] eqn:Eq; [|lia].
  destruct A1 as (Gq & A1 & _).
  assert (Ecb : get_coordinates b p = q) by (rewrite <- E, A1; now apply coords_of_index).
  assert (Hsa : 0 <= across s < 2 * active_dimension (gr_cells gr)).
  { apply side_ok_iff; [lia|]. apply side_ok_across. apply side_ok_iff; lia. }
  pose proof (C18_neighbours p gr b jb lb nb (across s) Hp Hd Hn Hb Eb Hsa) as B1.
  rewrite Ecb, (beyond_sym _ _ _ _ _ Hbc Ga H6 Eq) in B1. destruct B1 as (_ & B1 & _). lia.
Qed.

(** The boundary conditions a configuration file can ask for agree on opposite
    sides (SimulatorSetup.cpp lines 275-281). *)
Theorem C18_configurations_are_paired :
  paired (fun _ => PERIODIC) /\ paired (fun _ => NEUMANN).
Proof. split; intros d Hd; split; auto. Qed.

Definition ex_grid (n : cell) (bc : Z -> btype) : grid :=
  mkgrid n bc (0, 0, 0) n (fun _ => 0%R) (fun _ => 1%R) (fun _ => 1%R).

(** With a grid that is periodic on one side only, symmetry fails: process 0
    expects messages from process 1 that are never sent. *)
Theorem C18_one_sided_periodicity_refuted :
  exists p gr la na lb nb, positive3 p /\ divides3 p (gr_cells gr) /\
    decompose p gr 0 (fun _ => 0) = Ok (la, na) /\ decompose p gr 1 (fun _ => 0) = Ok (lb, nb) /\
    na 0 = 1 /\ nb 1 = -1.
Proof.
  exists (2, 1, 1), (ex_grid (4, 1, 1) (fun s => if s =? 0 then PERIODIC else NEUMANN)).
  eexists. eexists. eexists. eexists. split; [|split].
  - intros k Hk. k3case Hk; cbn; lia.
  - intros k Hk. k3case Hk; cbn; [exists 2|exists 1|exists 1]; reflexivity.
  - repeat split; reflexivity.
Qed.

(** The hypotheses of the C18 theorems hold, for instance, for 4 x 6 cells on a
    2 x 3 processor grid; process 0 then has process 1 on both x sides. *)
Example C18_nonvacuous :
  let p := (2, 3, 1) in let gr := ex_grid (4, 6, 1) (fun _ => PERIODIC) in
  positive3 p /\ divides3 p (gr_cells gr) /\ paired (gr_bc gr) /\ processes p = 6 /\
  exists lg nb, decompose p gr 0 (fun _ => 7) = Ok (lg, nb) /\
    gr_cells lg = (2, 2, 1) /\ nb 0 = 1 /\ nb 1 = 1 /\ nb 2 = 4 /\ nb 3 = 2 /\ nb 4 = 7.
Proof.
  cbv zeta. split; [|split; [|split; [|split]]].
  - intros k Hk. k3case Hk; cbn; lia.
  - intros k Hk. k3case Hk; cbn; [exists 2|exists 2|exists 1]; reflexivity.
  - apply C18_configurations_are_paired.
  - reflexivity.
  - eexists. eexists. repeat split; reflexivity.
Qed.

(** ** C57: a block sees its cells at their positions in the global grid. *)
Theorem C57_cell_positions :
  forall p gr r junk lg nb c k,
  positive3 p -> divides3 p (gr_cells gr) -> (forall k, 0 <= k < 3 -> 0 <= at3 (gr_cells gr) k) ->
  0 <= r < processes p -> decompose p gr r junk = Ok (lg, nb) -> 0 <= k < 3 ->
  midpoint lg c k =
  midpoint gr (at3 (gr_start lg) 0 + at3 c 0, at3 (gr_start lg) 1 + at3 c 1, at3 (gr_start lg) 2 + at3 c 2) k.
Proof.
  intros p gr r junk lg nb c k Hp Hd Hn Hr E Hk.
  destruct (decompose_ok p gr r junk Hp Hn Hd Hr) as (lg' & nb' & E' & B).
  rewrite E in E'. injection E' as <- <-. destruct B as (_ & _ & _ & B4 & _ & B5 & _).
  unfold midpoint. rewrite B4, !B5.
  assert (Ek : at3 (at3 (gr_start lg) 0 + at3 c 0, at3 (gr_start lg) 1 + at3 c 1, at3 (gr_start lg) 2 + at3 c 2) k
     = at3 (gr_start lg) k + at3 c k) by (k3case Hk; reflexivity).
  rewrite Ek, plus_IZR. lra.
Qed.

(** Blocks that meet share the interface: the upper corner of a block is the
    lower corner of the next one in each active direction. *)
Theorem C57_blocks_meet :
  forall p gr a b ja jb la lb na nb d,
  positive3 p -> divides3 p (gr_cells gr) -> (forall k, 0 <= k < 3 -> 0 <= at3 (gr_cells gr) k) ->
  0 <= a < processes p -> 0 <= b < processes p ->
  decompose p gr a ja = Ok (la, na) -> decompose p gr b jb = Ok (lb, nb) ->
  0 <= d < active_dimension (gr_cells gr) ->
  get_coordinates b p = set3 (get_coordinates a p) d (at3 (get_coordinates a p) d + 1) ->
  gr_top la d = gr_origin lb d.
Proof.
  intros p gr a b ja jb la lb na nb d Hp Hd Hn Ha Hb Ea Eb Hdir Epos.
  destruct (decompose_ok p gr a ja Hp Hn Hd Ha) as (la' & na' & Ea' & A).
  rewrite Ea in Ea'. injection Ea' as <- <-. destruct A as (A1 & A2 & _ & A4 & A5 & _).
  destruct (decompose_ok p gr b jb Hp Hn Hd Hb) as (lb' & nb' & Eb' & B).
  rewrite Eb in Eb'. injection Eb' as <- <-. destruct B as (B1 & B2 & _ & B4 & B5 & _).
  pose proof (active_range (gr_cells gr)).
  rewrite A5 by lia. rewrite A4, B4, A2, B2, A1, at3_per3 by lia.
  rewrite Epos, at3_set3, Z.eqb_refl by lia. rewrite !mult_IZR, plus_IZR. ring.
Qed.

(** ** C20 *)

(** Between any two processes and for any tag there are as many sends as
    receives, and at most one. *)
Theorem C20_every_message_matched :
  forall p gr junk g nvars a b t,
  divided p (gr_cells gr) -> paired (gr_bc gr) ->
  0 <= a < processes p -> 0 <= b < processes p ->
  sends (world_ops p gr junk g nvars) a b t = receives (world_ops p gr junk g nvars) a b t /\
  (sends (world_ops p gr junk g nvars) a b t <= 1)%nat.
Proof.
  intros p gr junk g nvars a b t (Hp & Hd & Hc) Hbc Ha Hb.
  pose proof (matched (vd p gr) g nvars (processes p) (volume_size (per3 p (gr_cells gr)) g) (nb_at p gr)
    (vd_range p gr) (any_sym p gr Hp Hbc) a b t Ha Hb) as M.
  unfold sends, receives in *. rewrite !(any_eq p gr junk g nvars Hp Hd Hc) by assumption. exact M.
Qed.

(** No operation names a process outside the communicator. *)
Theorem C20_partners_exist :
  forall p gr junk g nvars r o,
  divided p (gr_cells gr) -> paired (gr_bc gr) -> 0 <= r < processes p ->
  In o (world_ops p gr junk g nvars r) ->
  match o with Isend _ _ q _ | Irecv _ _ q _ => 0 <= q < processes p end.
Proof.
  intros p gr junk g nvars r o (Hp & Hd & Hc) Hbc Hr Ho. pose proof (vd_range p gr) as V.
  rewrite (any_eq p gr junk g nvars Hp Hd Hc) in Ho by exact Hr.
  apply ops_In in Ho; [|exact V]. destruct Ho as (s & v & Hs & Hv & [(Hb & ->)|(Hb & ->)]).
  - apply (any_sym p gr Hp Hbc r s Hr Hs Hb).
  - apply (any_sym p gr Hp Hbc r (across s) Hr); [|exact Hb].
    apply side_ok_iff; [exact V|]. apply side_ok_across. now apply side_ok_iff.
Qed.

(** What meets: the slab sent from side [s] of a process arrives at the opposite
    side of its neighbour on that side, in the same variable. *)
Theorem C20_faces_meet :
  forall p gr junk g nvars m,
  divided p (gr_cells gr) -> paired (gr_bc gr) ->
  In m (messages (processes p) (world_ops p gr junk g nvars)) ->
  let n := per3 p (gr_cells gr) in
  exists s q, 0 <= s < 2 * volume_dimensions n /\
    beyond p (gr_bc gr) (get_coordinates (m_src m) p) s = Some q /\ m_dst m = get_rank_index q p /\
    m_svar m = m_rvar m /\ length (m_stype m) = length (m_rtype m) /\
    m_stype m = send_type s (volume_dimensions n) (volume_size n g) g /\
    m_rtype m = receive_type (across s) (volume_dimensions n) (volume_size n g) g.
Proof.
  intros p gr junk g nvars m (Hp & Hd & Hc) Hbc Hm. cbv zeta. rewrite (any_messages p gr junk g nvars Hp Hd Hc) in Hm.
  pose proof (any_sym p gr Hp Hbc) as Hsym.
  pose proof Hm as Hm'. apply In_nth_error in Hm'. destruct Hm' as (i & Hi).
  apply (messages_len (vd p gr) g nvars _ _ _ (vd_range p gr) Hsym) in Hi.
  apply (messages_In (vd p gr) g nvars _ _ _ (vd_range p gr) Hsym) in Hm.
  destruct Hm as (a & s & v & Ha & Hs & Hv & Hb & ->).
  cbn [m_src m_dst m_svar m_rvar m_stype m_rtype] in *.
  unfold nb_at, nb_of in Hb |- *.
  destruct (beyond p (gr_bc gr) (get_coordinates a p) s) as [q|] eqn:Eq; [|lia].
  exists s, q. split; [exact Hs|]. split; [exact Eq|]. repeat (split; [reflexivity|]).
  split; [exact Hi|]. split; reflexivity.
Qed.

(** So no exchange gets stuck: from every state that can be reached, every
    execution can be continued until all messages have arrived, and no execution
    is infinite. *)
Theorem C20_no_deadlock :
  forall A p gr junk g nvars (m : memory A) st,
  divided p (gr_cells gr) -> paired (gr_bc gr) ->
  let ms := messages (processes p) (world_ops p gr junk g nvars) in
  msteps ms (mstart m) st ->
  (mfinal ms st \/ exists st', mstep ms st st') /\
  (exists st', msteps ms st st' /\ mfinal ms st') /\
  Acc (fun y x => mstep ms x y) st.
Proof.
  intros A p gr junk g nvars m st (Hp & Hd & Hc) Hbc. cbv zeta.
  rewrite (any_messages p gr junk g nvars Hp Hd Hc). intros _.
  pose proof (messages_len (vd p gr) g nvars _ (volume_size (per3 p (gr_cells gr)) g) _ (vd_range p gr)
     (any_sym p gr Hp Hbc)) as L.
  set (ms := messages _ _) in *. split; [|split].
  - now apply not_stuck.
  - now apply completes.
  - remember (left_over ms (ms_net st)) as n eqn:E. revert st E.
    induction n as [n IH] using lt_wf_ind. intros st E. constructor. intros y Hy.
    apply (mstep_less ms L) in Hy. apply (IH (left_over ms (ms_net y))); [lia|reflexivity].
Qed.

(** Example: two processes in a periodic direction, where both neighbours of
    process 0 are process 1; four messages, told apart by their tags. *)
Example C20_nonvacuous :
  let p := (2, 1, 1) in let gr := ex_grid (6, 1, 1) (fun _ => PERIODIC) in
  fits p (gr_cells gr) 1 2 /\ divided p (gr_cells gr) /\ paired (gr_bc gr) /\
  map (fun m => (m_src m, m_dst m, m_tag m)) (messages 2 (world_ops p gr (fun _ _ => 0) 2 1)) =
    [(0, 1, 0); (0, 1, 1); (1, 0, 0); (1, 0, 1)].
Proof.
  cbv zeta. split; [|split; [|split]].
  - split; [lia|]. split; [lia|]. split; [intros k Hk; k3case Hk; cbn; lia|]. split.
    + intros k Hk. k3case Hk; cbn; [exists 3|exists 1|exists 1]; reflexivity.
    + intros k Hk. k3case Hk; vm_compute; intuition congruence.
  - split; [|split]; [intros k Hk; k3case Hk; cbn; lia| |intros k Hk; k3case Hk; cbn; lia].
    intros k Hk. k3case Hk; cbn; [exists 3|exists 1|exists 1]; reflexivity.
  - apply C18_configurations_are_paired.
  - vm_compute. reflexivity.
Qed.

(** ** C19 *)
Theorem C19_exchange :
  forall A p gr junk dims g nvars (m m' : memory A),
  fits p (gr_cells gr) dims g -> paired (gr_bc gr) ->
  exchanged (messages (processes p) (world_ops p gr junk g nvars)) m m' ->
  forall r v lg nb, 0 <= r < processes p -> 0 <= v < nvars ->
  decompose p gr r (junk r) = Ok (lg, nb) ->
  let n := gr_cells lg in let t := volume_size n g in
  (forall c, inner dims g n c -> m' r v (addr t c) = m r v (addr t c)) /\
  (forall s c, face_ghost dims g n s c -> nb s <> -1 ->
     inner dims g n (opposite_cell n s c) /\
     m' r v (addr t c) = m (nb s) v (addr t (opposite_cell n s c))) /\
  (forall s c, face_ghost dims g n s c -> nb s = -1 -> m' r v (addr t c) = m r v (addr t c)).
Proof.
  intros A p gr junk dims g nvars m m' Hf Hbc Hex r v lg nb Hr Hv E. cbv zeta.
  rewrite (world_messages p gr junk dims g nvars Hf) in Hex.
  assert (Hp : positive3 p) by apply Hf. assert (Hd : divides3 p (gr_cells gr)) by apply Hf.
  destruct (decompose_ok p gr r (junk r) Hp (cells_pos p gr dims g Hf) Hd Hr) as (lg' & nb' & E' & B).
  rewrite E in E'. injection E' as <- <-. destruct B as (B1 & _ & _ & _ & _ & _ & B2 & _).
  rewrite (act_dims p gr dims g Hf) in B2. rewrite B1.
  assert (N : forall k, 0 <= k < 3 -> 1 <= at3 (per3 p (gr_cells gr)) k)
    by (intros k Hk; apply (n_spec p gr dims g Hf k Hk)).
  assert (G : forall k, 0 <= k < dims -> g <= at3 (per3 p (gr_cells gr)) k).
  { intros k Hk. assert (0 <= k < 3) by (pose proof (proj1 Hf); lia).
    apply (n_spec p gr dims g Hf k); lia. }
  destruct (exchange_result dims g nvars (processes p) (volume_size (per3 p (gr_cells gr)) g) (nb_at p gr)
    (proj1 Hf) (nb_sym p gr dims g Hf Hbc) (per3 p (gr_cells gr)) N (vol_size p gr dims g Hf)
    (fun k Hk Hl => proj1 (proj2 (n_spec p gr dims g Hf k Hk)) Hl) G (proj1 (proj2 Hf)) m m' Hex r v Hr Hv)
    as (R1 & R2 & R3).
  assert (Enb : forall s c, face_ghost dims g (per3 p (gr_cells gr)) s c -> nb s = nb_at p gr r s).
  { intros s c Hc. apply (B2 s). apply Hc. }
  split; [exact R1|]. split.
  - intros s c Hc Hb. split; [apply (opposite_inner dims g (proj1 Hf) _ G s c Hc)|].
    rewrite (Enb s c Hc) in *. apply R2; [exact Hc|].
    unfold nb_at, nb_of in Hb |- *.
    destruct (beyond p (gr_bc gr) (get_coordinates r p) s) as [q|] eqn:Eq; [|lia].
    assert (H6 : 0 <= s < 6) by (pose proof (proj1 Hc); pose proof (proj1 Hf); lia).
    destruct (index_of_coords r p Hp Hr) as (Gr & _).
    pose proof (index_range q p (beyond_in _ _ _ _ _ Gr H6 Eq)). lia.
  - intros s c Hc Hb. apply (R3 s c Hc). rewrite <- (Enb s c Hc). lia.
Qed.

(** A complete exchange exists from every memory. *)
Theorem C19_exchange_completes :
  forall A p gr junk dims g nvars (m : memory A),
  fits p (gr_cells gr) dims g -> paired (gr_bc gr) ->
  exists m', exchanged (messages (processes p) (world_ops p gr junk g nvars)) m m'.
Proof.
  intros A p gr junk dims g nvars m Hf Hbc.
  destruct (C20_no_deadlock A p gr junk g nvars m (mstart m) (fits_divided _ _ _ _ Hf) Hbc (steps_refl _ _)) as (_ & (st & S1 & F) & _).
  exists (ms_mem st), st. auto.
Qed.

Example C19_nonvacuous :
  fits (2, 1, 1) (gr_cells (ex_grid (6, 1, 1) (fun _ => PERIODIC))) 1 2 /\
  face_ghost 1 2 (3, 1, 1) 0 (1, 0, 0) /\ opposite_cell (3, 1, 1) 0 (1, 0, 0) = (4, 0, 0).
Proof.
  split; [apply C20_nonvacuous|]. split; [|reflexivity].
  split; [lia|]. split; [vm_compute; intuition congruence|].
  intros k Hk. k3case Hk; vm_compute; intuition congruence.
Qed.

Print Assumptions C18_blocks_partition.
Print Assumptions C18_neighbours_symmetric.
Print Assumptions C19_exchange.
Print Assumptions C20_every_message_matched.
Print Assumptions C20_no_deadlock.
Print Assumptions C57_cell_positions.
