(** C94: the diffusion operator a configuration selects.
    Full statement: the node fvm.diffusion selects the operator it names or is
    rejected, and in every accepted configuration the operator conserves on a periodic
    grid.
    Proved: the selection; conservation when the scheme has more ghost layers than the
    order of the reconstruction of the operator.  False otherwise
    (C94_two_layers_refuted). *)
From Coq Require Import ZArith Reals List Bool Lia Lra String.
From Verif Require Import M_Base M_Vec M_Boundary M_Flux M_Scalar M_Recon M_Euler M_Eno M_Diffusion M_TecnoEno M_Config
  M_DiffusionConfig S_Boundary S_Flux S_Sum S_Entropy S_Diffusion S_TecnoEno S_Config S_DiffusionConfig
  L_Config T_Diffusion T_TecnoEno.
Import ListNotations.
Open Scope R_scope.

Lemma tecno_recon_iff r o : create_tecno_recon r = Ok o <-> In (r, o) tecno_recons.
Proof.
  unfold create_tecno_recon. split.
  - repeat (match goal with |- context [String.eqb r ?n] =>
      destruct (String.eqb_spec r n) as [->|]; [intros [= <-]; simpl; auto 10|] end). discriminate.
  - simpl. intros H. repeat (destruct H as [H|H]; [inversion H; reflexivity|]). destruct H.
Qed.
Lemma matrix_iff n m : named_matrix n = Ok m <-> In (n, m) matrices.
Proof.
  unfold named_matrix. split.
  - repeat (match goal with |- context [String.eqb n ?q] =>
      destruct (String.eqb_spec n q) as [->|]; [intros [= <-]; simpl; auto 10|] end). discriminate.
  - simpl. intros H. repeat (destruct H as [H|H]; [inversion H; reflexivity|]). destruct H.
Qed.

(** An accepted node yields exactly the operator it names. *)
Theorem C94_selected :
  forall node eq d, read_diffusion node eq = Ok d <-> selects node eq d.
Proof.
  intros node eq d. split.
  - destruct node as [[[n|] [r|]]|]; cbn [read_diffusion]; try discriminate; [|intros [= <-]; constructor].
    unfold create_diffusion. destruct (create_tecno_recon (trim r)) as [o| |] eqn:Eo; try discriminate. cbn [bind].
    apply tecno_recon_iff in Eo.
    destruct (String.eqb_spec (trim n) "none") as [En|]; [intros [= <-]; now apply sel_none with o|].
    repeat (match goal with |- context [String.eqb eq ?q] => destruct (String.eqb_spec eq q) as [->|];
      [destruct (named_matrix (trim n)) as [m| |] eqn:Em; try discriminate; intros [= <-]; apply matrix_iff in Em;
       apply sel_tecno; auto; simpl; auto 10|] end). discriminate.
  - intros H. destruct H as [eq|n r eq o Hn Hr|n r eq e m o Hn Hr He]; [reflexivity| |]; cbn [read_diffusion]; unfold create_diffusion;
      apply tecno_recon_iff in Hr; rewrite Hr; cbn [bind].
    + rewrite Hn. reflexivity.
    + assert (Nn : String.eqb (trim n) "none" = false).
      { simpl in Hn. destruct Hn as [Hn|[Hn|[]]]; inversion Hn; reflexivity. }
      rewrite Nn. apply matrix_iff in Hn. rewrite Hn. simpl in He.
      repeat (destruct He as [He|He]; [inversion He; reflexivity|]). destruct He.
Qed.

(** Every other node is rejected with an exception. *)
Theorem C94_rejected :
  forall node eq, (forall d, ~ selects node eq d) -> read_diffusion node eq = Throw.
Proof.
  intros node eq H. destruct (read_diffusion node eq) as [d| |] eqn:E.
  - apply C94_selected in E. destruct (H d E).
  - exfalso. revert E. destruct node as [[[n|] [r|]]|]; cbn [read_diffusion]; try discriminate.
    unfold create_diffusion, create_tecno_recon, named_matrix.
    repeat (match goal with |- context [if ?q then _ else _] => destruct q end; cbn [bind]; try discriminate).
  - reflexivity.
Qed.

(** Conservation, for the number of ghost layers the simulator takes and a new
    operator, of which only its order matters. *)
Theorem C94_conserves_partial :
  forall gamma eqn fl rcn s node e m k (V : cvars) (bs : basis V) eq dims nx ny nz u out st i,
  create_scheme gamma eqn fl rcn = Ok s -> selects node eqn (Tecno e m (TEno k)) ->
  (Z.of_nat k < layers (to_lower fl) (trim rcn))%Z ->
  let g := system_ghosts s (Tecno e m (TEno k)) in
  (if 1 <? dims then 1 < ny else ny = 1)%Z -> (if 2 <? dims then 1 < nz else nz = 1)%Z ->
  setting bs eq dims g nx ny nz u out st -> periodic_field dims g nx ny nz u ->
  exists st' out', apply_eno_diffusion bs eq m k dims u (st, fresh_scratch k nx ny nz) out = Ok (st', out') /\
    isum dims g (nvec nx ny nz) (fun c => comp i (added out out' c)) = 0.
Proof.
  intros gamma eqn fl rcn s node e m k V bs eq dims nx ny nz u out st i Hs Hd Hk g Hy Hz Hset Hp.
  assert (Hk4 : (2 <= k <= 4)%nat).
  { inversion Hd; subst. match goal with H : In (_, TEno k) tecno_recons |- _ => simpl in H;
      repeat (destruct H as [H|H]; [inversion H; subst; lia|]); destruct H end. }
  assert (Hg : (Z.of_nat k + 1 <= g)%Z).
  { unfold g, system_ghosts. rewrite (scheme_ghosts_names _ _ _ _ _ Hs). unfold layers in Hk. lia. }
  apply C65_sums_to_zero_partial; auto.
  destruct Hset as (_ & Hdm & Hx & _ & _ & _ & _ & _ & Hu & _).
  apply (C65_fresh_scratch_fits V u dims g nx ny nz k); auto; lia.
Qed.

(** The configuration of the example tecnoburgers with eno2: accepted, with two ghost
    layers, and what the operator adds does not sum to zero for some periodic data in
    (0, 2). *)
Theorem C94_two_layers_refuted :
  exists s d g n f,
    create_scheme 1 "burgers" "tecno1" "none" = Ok s /\
    selects (Some (Some "tecnoroe", Some "eno2")) "burgers" d /\ d = Tecno (Scalar Burgers) Roe (TEno 2) /\
    g = system_ghosts s d /\
    setting scalar_basis burgers_diffusion 1 g n 1 1 (line f g n) (zero_out (line f g n)) (line_state f g n) /\
    periodic_field 1 g n 1 1 (line f g n) /\ (forall j, 0 < f j < 2) /\
    exists s' out', apply_eno_diffusion scalar_basis burgers_diffusion Roe 2 1 (line f g n)
        (line_state f g n, fresh_scratch 2 n 1 1) (zero_out (line f g n)) = Ok (s', out') /\
      isum 1 g (nvec n 1 1) (fun c => comp 0 (added (zero_out (line f g n)) out' c)) <> 0.
Proof.
  destruct C65_ghost_layers_refuted as (g & n & f & Hg & H).
  eexists. eexists. exists g, n, f. split; [reflexivity|].
  split; [apply sel_tecno; simpl; auto|]. split; [reflexivity|]. split; [rewrite Hg; reflexivity|]. exact H.
Qed.

(** A node that asks for no diffusion is rejected if it has no reconstruction or one
    of the scheme's that the operators do not have. *)
Theorem C94_none_refuted :
  exists name r, trim name = "none"%string /\ find_recon (Scalar Burgers) 1 r <> None /\
    read_diffusion (Some (Some name, None)) "burgers" = Throw /\
    read_diffusion (Some (Some name, Some r)) "burgers" = Throw.
Proof. exists "none"%string, "weno2"%string. repeat split; discriminate. Qed.

(** Capital letters are accepted in the name of a flux and not in that of the operator. *)
Theorem C94_capitals_refuted :
  exists fl name s, create_scheme 1 "burgers" fl "none" = Ok s /\ fl <> to_lower fl /\
    to_lower name = "tecnoroe"%string /\ read_diffusion (Some (Some name, Some "none"%string)) "burgers" = Throw.
Proof. exists "Tecno1"%string, "TecnoRoe"%string. eexists. repeat split; discriminate. Qed.

(** tecno4 with eno2 has three layers, tecno6 with eno4 five; fluxes of fewer points
    need a reconstruction of higher order than the operator's. *)
Example C94_layers_case :
  layers "tecno4" "none" = 3%Z /\ layers "tecno6" "none" = 5%Z /\ layers "tecno1" "eno3" = 3%Z.
Proof. repeat split. Qed.

(** The hypotheses of C94_conserves_partial hold for Burgers with tecno4 and eno2. *)
Example C94_nonvacuous :
  exists s st' out', create_scheme 1 "burgers" "tecno4" "none" = Ok s /\
    apply_eno_diffusion scalar_basis burgers_diffusion Roe 2 1 (line f2 3 4)
      (line_state f2 3 4, fresh_scratch 2 4 1 1) (zero_out (line f2 3 4)) = Ok (st', out') /\
    isum 1 3 (nvec 4 1 1) (fun c => comp 0 (added (zero_out (line f2 3 4)) out' c)) = 0.
Proof.
  assert (Hs : exists s, create_scheme 1 "burgers" "tecno4" "none" = Ok s) by (eexists; reflexivity).
  destruct Hs as [s Hs].
  assert (Hg : system_ghosts s (Tecno (Scalar Burgers) Roe (TEno 2)) = 3%Z).
  { unfold system_ghosts. rewrite (scheme_ghosts_names _ _ _ _ _ Hs). reflexivity. }
  destruct (C94_conserves_partial 1 "burgers" "tecno4" "none" s (Some (Some " tecnoroe", Some "eno2"))%string
    (Scalar Burgers) Roe 2 scalar_cvars scalar_basis burgers_diffusion 1 4 1 1 (line f2 3 4) (zero_out (line f2 3 4))
    (line_state f2 3 4) 0 Hs) as (st' & out' & A & B).
  - apply sel_tecno; simpl; auto.
  - reflexivity.
  - reflexivity.
  - reflexivity.
  - rewrite Hg. apply line_setting; lia.
  - rewrite Hg. apply line_periodic; lia.
  - rewrite Hg in B. exists s, st', out'. auto.
Qed.

Print Assumptions C94_selected.
Print Assumptions C94_rejected.
Print Assumptions C94_conserves_partial.
Print Assumptions C94_two_layers_refuted.
Print Assumptions C94_none_refuted.
Print Assumptions C94_capitals_refuted.
