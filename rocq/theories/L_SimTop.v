(** Whole runs of the serial simulator. *)
From Coq Require Import ZArith Reals List Bool Lia Lra.
From Verif Require Import M_Base M_Vec M_Boundary M_Flux M_Sim S_Boundary S_Flux S_Sum S_Sim L_Base L_Loops
  L_Boundary L_Flux L_System L_Sum L_Conserve L_FluxTop L_Sim.
Import ListNotations.
Open Scope Z_scope.

Section T.
Context {V : cvars}.
Variables (it : integrator) (b : bckind) (dims g : Z) (fx : numflux V) (rc : recon V) (nx ny nz : Z).
Hypothesis Hdims : 1 <= dims <= 3.
Hypothesis Hcomp : compatible fx rc g.
Hypothesis (Hx : 0 < nx) (Hy : 0 < ny) (Hz : 0 < nz).
Hypothesis (Gx : g <= nx) (Gy : 1 < dims -> g <= ny) (Gz : 2 < dims -> g <= nz).
Hypothesis Hcells : total_cells dims g nx ny nz < 2 ^ 31.

Notation ext := (S_Flux.ext (V := V) dims g nx ny nz).
Notation interior := (interior dims g nx ny nz).
Notation in_volume := (in_volume dims g nx ny nz).
Notation im := (image (bc_image b) dims g nx ny nz).
Notation L := (semidiscrete (V := V) b dims g nx ny nz fx rc).

Definition ref : vol V :=
  mkvol (nx + 2 * g) (if 1 <? dims then ny + 2 * g else ny) (if 2 <? dims then nz + 2 * g else nz)
        (fun _ => vzero).
Lemma ref_ext : ext ref.
Proof. repeat split. Qed.
Lemma g_pos : 1 <= g.
Proof. destruct Hcomp. lia. Qed.
Lemma ref_size : 0 <= vsize ref < 2 ^ 31.
Proof.
  split; [|exact Hcells]. pose proof g_pos. unfold vsize, ref; cbn [vnx vny vnz].
  apply Z.mul_nonneg_nonneg; [apply Z.mul_nonneg_nonneg|]; [lia| |];
    match goal with |- context [?a <? dims] => destruct (a <? dims) end; lia.
Qed.
Lemma same_ext v : same_dims ref v <-> ext v.
Proof. apply ext_same. apply ref_ext. Qed.
Lemma interior_ref c : interior c -> inr ref c.
Proof.
  intros H. apply (in_volume_iff ref dims g nx ny nz); [lia|apply ref_ext|].
  pose proof g_pos. destruct c as [[x y] z]. unfold S_Boundary.interior, S_Boundary.in_volume, interior1 in *.
  destruct (1 <? dims); destruct (2 <? dims); lia.
Qed.

Definition good (u : vol V) : Prop := ext u /\ forall c, in_volume c -> vget u c = vget u (im c).

Lemma im_interior c : in_volume c -> interior (im c).
Proof.
  pose proof g_pos. destruct c as [[x y] z]. unfold S_Boundary.in_volume, S_Boundary.interior, image.
  intros (H1 & H2 & H3).
  assert (R : forall n t, 0 < n -> g <= n -> 0 <= t < n + 2 * g -> interior1 g n (bc_image b g n t)).
  { intros n t Hn Hg Ht. unfold interior1. destruct b; simpl.
    - apply periodic1_range. lia.
    - apply mirror1_range; lia. }
  split; [apply R; auto|]. split.
  - destruct (1 <? dims) eqn:E1; [|exact H2]. apply R; auto. apply Gy. now apply Z.ltb_lt.
  - destruct (2 <? dims) eqn:E2; [|exact H3]. apply R; auto. apply Gz. now apply Z.ltb_lt.
Qed.
Lemma im_id c : interior c -> im c = c.
Proof.
  destruct c as [[x y] z]. unfold S_Boundary.interior, image, interior1. intros (H1 & H2 & H3).
  assert (R : forall n t, g <= t < g + n -> bc_image b g n t = t).
  { intros. destruct b; simpl; [now apply periodic1_mid|now apply mirror1_mid]. }
  rewrite R by exact H1. destruct (1 <? dims); destruct (2 <? dims); rewrite ?R by assumption; reflexivity.
Qed.

(** Cells read by the right hand side of an interior cell. *)
Lemma stencil_in_volume c d s : interior c -> 0 <= d < dims -> - g <= s <= g -> in_volume (move d s c).
Proof.
  intros Hc Hd Hs. pose proof g_pos. assert (Dd : dir d) by (unfold dir; lia).
  apply (in_volume_iff ref dims g nx ny nz); [lia|apply ref_ext|]. apply inr_iff. intros k Hk.
  rewrite (total_extents ref dims g nx ny nz k); [|exact Hk|lia|apply ref_ext].
  apply interior_iff with (k := k) in Hc; [|lia|exact Hk].
  rewrite coord_move by auto. unfold ilo, ihi in Hc.
  destruct (Z.eqb_spec k d) as [E|]; [subst k; revert Hc; destruct (Z.ltb_spec d dims); lia|].
  destruct (k <? dims); lia.
Qed.

Lemma L_ext a a' : (forall c, interior c -> a c = a' c) -> forall c, interior c -> L a c = L a' c.
Proof.
  intros H c Hc. unfold semidiscrete. apply (rhs_ext dims g fx rc Hcomp).
  intros d s Hd Hs. unfold filled. apply H. apply im_interior. now apply stencil_in_volume.
Qed.

Lemma L_good u c : good u -> interior c -> rhs dims fx rc (vget u) c = L (vget u) c.
Proof.
  intros [_ Hg] Hc. unfold semidiscrete. apply (rhs_ext dims g fx rc Hcomp).
  intros d s Hd Hs. unfold filled. apply Hg. now apply stencil_in_volume.
Qed.

Lemma bc_ok_serial v : ext v ->
  exists v', apply_boundary (bc_apply b) dims g (fun _ => false) v = Ok v' /\ good v' /\
    forall c, interior c -> vget v' c = vget v c.
Proof.
  intros Hv. pose proof g_pos.
  assert (E : exists areas', apply_boundary_conditions (bc_apply b) dims g (fun _ => false) [v] = Ok areas' /\
    Forall2 (fun v v' => has_extents v' dims g nx ny nz /\
      (forall c, interior c -> vget v' c = vget v c) /\
      (forall c, in_volume c -> vget v' c = vget v (im c))) [v] areas').
  { destruct b; [apply periodic_serial|apply neumann_serial]; auto; try lia;
      intros v0 [<-|[]]; exact Hv. }
  destruct E as (areas' & E & F). unfold apply_boundary_conditions in E. cbn [map_res] in E.
  destruct (apply_boundary (bc_apply b) dims g (fun _ => false) v) as [v'| |]; cbn [bind] in E; try discriminate.
  injection E as <-. inversion F as [|? ? ? ? [Hx' [Hi Hm]]]; subst.
  exists v'. split; [reflexivity|]. split; [|exact Hi]. split; [exact Hx'|].
  intros c Hc. rewrite Hm by exact Hc. rewrite Hi by now apply im_interior. reflexivity.
Qed.

Notation okS := (scratch_ext (V := V) dims g nx ny nz).
Definition speed_ok (u : field V) (ws : Z -> R) : Prop :=
  is_wave_speed dims g nx ny nz fx rc (filled b dims g nx ny nz u) ws.

Lemma speed_good u ws : good u ->
  is_wave_speed dims g nx ny nz fx rc (vget u) ws -> speed_ok (vget u) ws.
Proof.
  intros [_ Hg] H e He. specialize (H e He). cbv zeta in *.
  assert (E : forall c, interior c \/ interior (move e 1 c) ->
     iface fx rc e (filled b dims g nx ny nz (vget u)) c = iface fx rc e (vget u) c).
  { intros c Hc. apply (iface_ext g fx rc Hcomp). intros s Hs. unfold filled. symmetry. apply Hg.
    destruct Hc as [Hc|Hc].
    - apply stencil_in_volume; auto; lia.
    - replace (move e s c) with (move e (s - 1) (move e 1 c)).
      + apply stencil_in_volume; auto; lia.
      + rewrite move_move. f_equal. lia. }
  destruct H as (H1 & H2 & H3). split; [exact H1|]. split.
  - intros c Hc. rewrite E by exact Hc. auto.
  - destruct H3 as [H3|(c & Hc & H3)]; [now left|right]. exists c. split; [exact Hc|].
    now rewrite E.
Qed.

Lemma sys_ok u out sc : good u -> same_dims ref out -> okS sc ->
  exists u' out' ws sc', flux_system dims g fx rc Ok u out sc = Ok (u', out', ws, sc') /\
    good u' /\ same_dims ref out' /\ okS sc' /\
    (forall c, interior c -> vget u' c = vget u c) /\
    (forall c, interior c -> vget out' c = L (vget u) c) /\
    speed_ok (vget u) ws.
Proof.
  intros Hg Ho Hs. destruct sc as [[l r] t]. destruct Hs as (Hl & Hr & Ht).
  unfold flux_system.
  destruct (system_top dims g fx rc nx ny nz Hdims Hcomp Hx Hy Hz Gx Gy Gz Ok u u
     (mkfstate l r t out (fun _ => 0%R))) as (s' & E & D & W & _ & S).
  - apply Hg.
  - repeat split; cbn [f_left f_right f_temp f_out]; try apply Hl; try apply Hr; try apply Ht;
      apply same_ext in Ho; apply Ho.
  - reflexivity.
  - apply Hg.
  - reflexivity.
  - rewrite E. cbn [bind]. exists u, (f_out s'), (f_speed s'), (f_left s', f_right s', f_temp s').
    destruct D as (D1 & D2 & D3 & D4).
    split; [reflexivity|]. split; [exact Hg|]. split; [now apply same_ext|].
    split; [repeat split; first [apply D1|apply D2|apply D3]|]. split; [reflexivity|]. split.
    + intros c Hc. rewrite W by exact Hc. now apply L_good.
    + now apply speed_good.
Qed.

Notation bc := (apply_boundary (bc_apply b) dims g (fun _ => false)).
Notation sys := (flux_system dims g fx rc Ok).
Definition Inv (st : sim V (vol V * vol V * vol V)) : Prop := inv ref good okS it st.

Lemma solution_cur st : Inv st -> solution st = cur ref st.
Proof.
  intros (_ & Hl & _). unfold solution, cur. destruct (s_vols st); [discriminate|reflexivity].
Qed.

Theorem step_ok p adj st :
  Inv st ->
  exists st' dt ws,
    increment_solution it sys bc p adj st = Ok st' /\ Inv st' /\
    is_wave_speed dims g nx ny nz fx rc (filled b dims g nx ny nz (solution st)) ws /\
    dt = compute_timestep (p_wadj p) (adj (s_time st)) ws (p_len p) (p_cfl p) /\
    s_time st' = (s_time st + dt)%R /\ s_steps st' = S (s_steps st) /\
    forall c, interior c -> solution st' c = textbook L it (dt / p_len p 0) (solution st) c.
Proof.
  intros Hi.
  destruct (increment_ok (Sc := vol V * vol V * vol V) ref ref_size interior interior_ref good
    (fun v H => proj2 (same_ext v) (proj1 H)) okS L speed_ok sys bc L_ext sys_ok) with
    (it := it) (p := p) (adj := adj) (st := st) as (st' & dt & ws & E & I' & S & D & T & N & W).
  - intros v Hv. apply bc_ok_serial. now apply same_ext.
  - exact Hi.
  - exists st', dt, ws. rewrite (solution_cur st), (solution_cur st') by assumption. auto 10.
Qed.

Lemma start_ok vols sc :
  Forall ext vols -> length vols = S (substeps it) -> okS sc ->
  exists st, start bc vols sc = Ok st /\ Inv st /\ s_time st = 0%R /\
    forall c, interior c -> solution st c = vget (hd ref vols) c.
Proof.
  intros Hv Hl Hs. unfold start. destruct vols as [|u vols]; [discriminate|].
  cbn [vat nth_error bind hd]. inversion Hv as [|? ? Hu Hr]; subst.
  destruct (bc_ok_serial u Hu) as (u' & E & G & W). rewrite E. cbn [bind].
  eexists. split; [reflexivity|]. split; [|split; [reflexivity|exact W]].
  repeat split; cbn [s_vols s_sys vset nth]; auto.
  - constructor; [apply same_ext, G|]. eapply Forall_impl; [|exact Hr]. intros. now apply same_ext.
  - apply G.
  - apply G.
  - apply G.
  - apply G.
Qed.

(** A property of the solution that every textbook step preserves holds after
    any number of steps. *)
Theorem run_preserves (P : field V -> Prop) p obeys vols sc adjs :
  (forall h u u', P u -> (forall c, interior c -> u' c = textbook L it h u c) -> P u') ->
  (forall u u', P u -> (forall c, interior c -> u' c = u c) -> P u') ->
  Forall ext vols -> length vols = S (substeps it) -> okS sc ->
  P (vget (hd ref vols)) ->
  (exists st, serial_run it b dims g fx rc p obeys vols sc adjs = Ok st /\ P (solution st) /\
     s_steps st = length adjs) \/
  (serial_run it b dims g fx rc p obeys vols sc adjs = Throw /\ exists u, obeys u = false).
Proof.
  intros HP HE Hv Hl Hs H0. unfold serial_run.
  destruct (start_ok vols sc Hv Hl Hs) as (st0 & E0 & I0 & T0 & W0). rewrite E0. cbn [bind].
  assert (P0 : P (solution st0)) by (eapply HE; [exact H0|exact W0]).
  assert (N0 : s_steps st0 = O).
  { unfold start in E0. destruct (vat vols 0); cbn [bind] in E0; try discriminate.
    destruct (apply_boundary _ _ _ _ _); cbn [bind] in E0; try discriminate. injection E0 as <-. reflexivity. }
  change (length adjs) with (0 + length adjs)%nat. rewrite <- N0. clear E0 W0 N0 T0.
  revert st0 I0 P0. unfold run. induction adjs as [|adj adjs IH]; intros st0 I0 P0; cbn [fold_res].
  - left. exists st0. simpl. split; [reflexivity|]. split; [exact P0|lia].
  - destruct (step_ok p adj st0 I0) as (st1 & dt & ws & E1 & I1 & _ & _ & _ & N1 & W1).
    assert (EP : perform_step it sys bc p adj obeys st0 =
      if obeys (nth 0 (s_vols st1) ref) then Ok st1 else Throw).
    { unfold perform_step, checked_step. rewrite E1. cbn [bind].
      rewrite (vat_nth (s_vols st1) 0 ref) by (destruct I1 as (_ & -> & _); lia). reflexivity. }
    rewrite EP. destruct (obeys (nth 0 (s_vols st1) ref)) eqn:Eo; cbn [bind].
    + destruct (IH st1 I1 (HP _ _ _ P0 W1)) as [(st & E & Pst & N)|(E & X)].
      * left. exists st. split; [exact E|]. split; [exact Pst|]. simpl length. lia.
      * right. split; [exact E|exact X].
    + right. split; [reflexivity|]. eauto.
Qed.

Lemma ready_Inv st : ready it b dims g nx ny nz st <-> Inv st.
Proof.
  unfold ready, Inv, inv, good. split.
  - intros (H1 & H2 & H3 & H4). split; [|split; [exact H2|split; [|exact H4]]].
    + eapply Forall_impl; [|exact H1]. intros. now apply same_ext.
    + unfold solution in H3. destruct (s_vols st) as [|u l]; [discriminate|]. simpl.
      inversion H1; subst. auto.
  - intros (H1 & H2 & (H3 & H4) & H5). split; [|split; [exact H2|split; [|exact H5]]].
    + eapply Forall_impl; [|exact H1]. intros. now apply same_ext.
    + unfold solution. destruct (s_vols st) as [|u l]; [discriminate|]. exact H4.
Qed.

Theorem step_ready p adj st :
  ready it b dims g nx ny nz st ->
  exists st' dt ws,
    increment_solution it sys bc p adj st = Ok st' /\ ready it b dims g nx ny nz st' /\
    is_wave_speed dims g nx ny nz fx rc (filled b dims g nx ny nz (solution st)) ws /\
    dt = compute_timestep (p_wadj p) (adj (s_time st)) ws (p_len p) (p_cfl p) /\
    s_time st' = (s_time st + dt)%R /\ s_steps st' = S (s_steps st) /\
    forall c, interior c -> solution st' c = textbook L it (dt / p_len p 0) (solution st) c.
Proof.
  intros H. apply ready_Inv in H. destruct (step_ok p adj st H) as (st' & dt & ws & E & I' & R).
  exists st', dt, ws. split; [exact E|]. split; [now apply ready_Inv|exact R].
Qed.

Theorem start_ready vols sc :
  Forall ext vols -> length vols = S (substeps it) -> okS sc ->
  exists st, start bc vols sc = Ok st /\ ready it b dims g nx ny nz st /\ s_time st = 0%R /\
    forall c, interior c -> solution st c = vget (hd ref vols) c.
Proof.
  intros H1 H2 H3. destruct (start_ok vols sc H1 H2 H3) as (st & E & I' & R).
  exists st. split; [exact E|]. split; [now apply ready_Inv|exact R].
Qed.

End T.
