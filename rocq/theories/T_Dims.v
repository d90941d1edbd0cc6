(** C81: an accepted configuration only reads components that the vectors have. *)
From Coq Require Import ZArith Reals List Bool Lia String Lra.
From Verif Require Import M_Base M_Boundary M_Vec M_Flux M_Combined M_Euler M_Scalar M_Recon M_Config M_Dims
  S_Dims L_Base L_Flux L_Dims L_Config.
Import ListNotations.
Open Scope string_scope.

Lemma equation_cases name e : last_match name equations = Some e ->
  (exists n, (1 <= n <= 3)%nat /\ e = Euler n /\
     name = match n with 1%nat => "euler1" | 2%nat => "euler2" | _ => "euler3" end) \/
  (exists k, e = Scalar k /\ name <> "euler1" /\ name <> "euler2" /\ name <> "euler3").
Proof.
  unfold last_match, equations. cbn [fold_left fst snd].
  destruct (String.eqb_spec "linear" name) as [<-|_].
  { intros H. injection H as <-. right. exists Linear. repeat split; discriminate. }
  destruct (String.eqb_spec "cubic" name) as [<-|_].
  { intros H. injection H as <-. right. exists Cubic. repeat split; discriminate. }
  destruct (String.eqb_spec "buckleyleverett" name) as [<-|_].
  { intros H. injection H as <-. right. exists BuckleyLeverett. repeat split; discriminate. }
  destruct (String.eqb_spec "burgers" name) as [<-|_].
  { intros H. injection H as <-. right. exists Burgers. repeat split; discriminate. }
  destruct (String.eqb_spec "euler3" name) as [<-|_].
  { intros H. injection H as <-. left. exists 3%nat. repeat split; lia. }
  destruct (String.eqb_spec "euler2" name) as [<-|_].
  { intros H. injection H as <-. left. exists 2%nat. repeat split; lia. }
  destruct (String.eqb_spec "euler1" name) as [<-|_].
  { intros H. injection H as <-. left. exists 1%nat. repeat split; lia. }
  discriminate.
Qed.

Lemma active_directions ny nz d : (0 <= d < active_dimension ny nz)%Z <-> grid_direction ny nz d.
Proof.
  unfold active_dimension, grid_direction. rewrite !Z.gtb_ltb.
  destruct (Z.ltb_spec 1 nz), (Z.ltb_spec 1 ny); lia.
Qed.

(** The grid plays no part in the acceptance. *)
Theorem C81_accepted gamma nx ny nz equation flux reconstruction :
  (exists ob, create_flux gamma nx ny nz equation flux reconstruction = Ok ob) <->
  (exists sc, create_scheme gamma equation flux reconstruction = Ok sc).
Proof.
  unfold create_flux, create_scheme. destruct (last_match equation equations) as [e|].
  2: { split; intros [x H]; discriminate H. }
  destruct (find_recon e gamma (trim reconstruction)) as [rc|].
  2: { split; intros [x H]; discriminate H. }
  destruct e as [e|n]; cbn [c_find_flux find_flux].
  - destruct (last_match (to_lower flux) (scalar_fluxes e)) as [k|]; cbn [option_map];
      split; intros [x H]; try discriminate H; eexists; reflexivity.
  - destruct (last_match (to_lower flux) euler_fluxes) as [k|]; cbn [option_map];
      split; intros [x H]; try discriminate H; eexists; reflexivity.
Qed.

(** With a component for every direction of the grid the right hand side is the one
    of M_Flux, whose component reads are total. *)
Theorem C81_enough_partial gamma nx ny nz equation flux reconstruction ob :
  create_flux gamma nx ny nz equation flux reconstruction = Ok ob ->
  (forall d, grid_direction ny nz d -> has_component equation d) ->
  exists (V : cvars) (fx : numflux V) (cf : cflux V) (rc : recon V),
    ob = mkobject V (active_dimension ny nz) cf rc /\
    create_scheme gamma equation flux reconstruction = Ok (mkscheme V fx rc) /\
    forall g exchange u s,
      c_system_flux (active_dimension ny nz) g cf rc exchange u s
      = system_flux (active_dimension ny nz) g fx rc exchange u s.
Proof.
  intros H Hc. unfold create_flux in H. unfold create_scheme.
  destruct (last_match equation equations) as [e|] eqn:He; [|discriminate H].
  destruct (find_recon e gamma (trim reconstruction)) as [rc|]; [|discriminate H].
  destruct (equation_cases _ _ He) as [[n [Hn [-> Hname]]]|[k [-> _]]]; cbn [c_find_flux find_flux] in *.
  - destruct (last_match (to_lower flux) euler_fluxes) as [k|]; [|discriminate H].
    cbn [option_map] in *. injection H as <-.
    exists (euler_cvars n), (euler_numflux n gamma k), (c_euler n gamma k), rc.
    split; [reflexivity|]. split; [reflexivity|]. intros g exchange u s. apply system_agree.
    intros d left right x y z Hd. apply c_euler_in.
    destruct (Hc d (proj1 (active_directions ny nz d) Hd)) as [C1 [C2 C3]].
    destruct n as [|[|[|[|]]]]; try lia.
    + specialize (C1 Hname). lia.
    + specialize (C2 Hname). lia.
    + specialize (C3 Hname). lia.
  - destruct (last_match (to_lower flux) (scalar_fluxes k)) as [f|]; [|discriminate H].
    cbn [option_map] in *. injection H as <-.
    exists scalar_cvars, (the_flux k f), (total_flux (the_flux k f)), rc.
    split; [reflexivity|]. split; [reflexivity|]. intros g exchange u s. apply system_agree.
    intros d left right x y z Hd. apply total_flux_at.
Qed.
Print Assumptions C81_enough_partial.

(** Without it every evaluation of the right hand side is undefined, on every grid with
    at least one cell inside the ghost cells. *)
Theorem C81_too_few gamma nx ny nz equation flux reconstruction ob d :
  create_flux gamma nx ny nz equation flux reconstruction = Ok ob ->
  grid_direction ny nz d -> ~ has_component equation d ->
  forall g exchange u s, (1 <= g)%Z -> exchange u <> Throw ->
  (forall k, (0 <= k < 3)%Z -> (2 * ghost (ob_dims ob) g k < total (f_out s) k)%Z) ->
  c_system_flux (ob_dims ob) g (ob_flux ob) (ob_recon ob) exchange u s = UB.
Proof.
  intros H Hd Hc. unfold create_flux in H.
  destruct (last_match equation equations) as [e|] eqn:He; [|discriminate H].
  destruct (find_recon e gamma (trim reconstruction)) as [rc|]; [|discriminate H].
  destruct (equation_cases _ _ He) as [[n [Hn [-> Hname]]]|[k [-> [N1 [N2 N3]]]]]; cbn [c_find_flux] in H.
  - destruct (last_match (to_lower flux) euler_fluxes) as [k|]; [|discriminate H].
    cbn [option_map] in H. injection H as <-. cbn [ob_dims ob_flux ob_recon ob_vars record_type].
    intros g exchange u s Hg Hx Hk.
    pose proof (proj2 (active_directions ny nz d) Hd) as Ha.
    apply (system_undefined _ _ _ _ (c_euler_no_throw n gamma k) d); auto.
    + intros left right x y z. apply c_euler_out.
      destruct (Nat.lt_ge_cases (Z.to_nat d) n) as [L|L]; [|exact L]. elim Hc.
      unfold has_component. destruct n as [|[|[|[|]]]]; try lia; rewrite Hname;
        (split; [|split]); intros E; try discriminate E; lia.
    + unfold active_dimension. destruct (nz >? 1)%Z, (ny >? 1)%Z; lia.
  - elim Hc. unfold has_component. tauto.
Qed.
Print Assumptions C81_too_few.

(** A 3 * 4 grid of euler1, one ghost cell. *)
Definition flat_volume : vol (euler_cvars 1) := mkvol 5 6 1 (fun _ => (1, ((0, tt), 1))%R).
Definition flat_state : fstate (euler_cvars 1) :=
  mkfstate flat_volume flat_volume flat_volume flat_volume (fun _ => 0%R).

Theorem C81_refuted : exists gamma nx ny nz equation flux reconstruction ob,
  create_flux gamma nx ny nz equation flux reconstruction = Ok ob /\
  exists g exchange u s, (1 <= g)%Z /\ exchange u = Ok u /\
  c_system_flux (ob_dims ob) g (ob_flux ob) (ob_recon ob) exchange u s = UB.
Proof.
  exists (7 / 5)%R, 3%Z, 4%Z, 1%Z, "euler1", "hll", "none". eexists. split; [reflexivity|].
  exists 1%Z, (fun v => Ok v), flat_volume, flat_state. split; [lia|]. split; [reflexivity|].
  apply (C81_too_few (7 / 5)%R 3 4 1 "euler1" "hll" "none" _ 1); try reflexivity.
  - right. left. lia.
  - intros [H _]. specialize (H eq_refl). lia.
  - discriminate.
  - intros k Hk. assert (k = 0 \/ k = 1 \/ k = 2)%Z as [->|[->| ->]] by lia; cbn; lia.
Qed.
Print Assumptions C81_refuted.

(** Euler2 on a flat grid and on a line, euler3 in space, scalar equations anywhere. *)
Example C81_euler2_flat : forall d, grid_direction 4 1 d -> has_component "euler2" d.
Proof. intros d [->|[[-> _]|[-> H]]]; unfold has_component; try lia; (split; [|split]); intros E; try discriminate E; lia. Qed.
Example C81_euler3_space : forall d, grid_direction 4 4 d -> has_component "euler3" d.
Proof. intros d [->|[[-> _]|[-> H]]]; unfold has_component; (split; [|split]); intros E; try discriminate E; lia. Qed.
Example C81_burgers : forall ny nz d, grid_direction ny nz d -> has_component "burgers" d.
Proof. intros ny nz d _. unfold has_component. (split; [|split]); intros E; discriminate E. Qed.
Example C81_accepts : exists ob, create_flux (7 / 5) 3 4 1 "euler2" "hll3" "eno2" = Ok ob.
Proof. eexists. reflexivity. Qed.
Example C81_not_euler2_space : grid_direction 1 3 2 /\ ~ has_component "euler2" 2.
Proof.
  split; [right; right; lia|]. intros [_ [H _]]. specialize (H eq_refl). lia.
Qed.
