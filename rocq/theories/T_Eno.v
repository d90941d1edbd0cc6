(** C64: the divided difference arrays of ENOCPU; C08 for the loops that fill
    them. *)
From Coq Require Import ZArith Reals List Bool Lia Lra.
From Verif Require Import M_Base M_Vec M_Boundary M_Flux M_Recon M_Eno M_Race S_Boundary S_Flux S_Recon S_Race
  L_Base L_Loops L_Boundary L_Flux L_System L_Sum L_Conserve L_FluxTop L_Recon L_Race L_Eno T_Race.
Import ListNotations.
Open Scope Z_scope.

(** The arrays fit the volume, or have another size and will be replaced. *)
Definition usable {A} (k : nat) (u : vol A) (scratch : list (vol R)) : Prop :=
  length scratch = (k - 1)%nat /\
  (Forall (same_dims u) scratch \/ Forall (fun w => size3 u <> size3 w) scratch).

Lemma extents_active {A} (u : vol A) dims g nx ny nz :
  1 <= dims <= 3 -> 1 <= g -> 0 < nx -> 0 < ny -> 0 < nz -> (dims <= 1 -> ny = 1) -> (dims <= 2 -> nz = 1) ->
  has_extents u dims g nx ny nz ->
  (forall j, dir j -> j < dims -> 1 < total u j) /\ (forall j, dir j -> dims <= j -> total u j = 1).
Proof.
  intros Hd Hg Hx Hy Hz F1 F2 (E1 & E2 & E3).
  split; intros j Hj Hl; dcase Hj; unfold total; cbn [Z.eqb Pos.eqb]; rewrite ?E1, ?E2, ?E3;
  try (destruct (Z.ltb_spec 1 dims)); try (destruct (Z.ltb_spec 2 dims)); lia.
Qed.

(** C64.  Whatever the arrays hold from earlier calls, performReconstruction of
    ENOCPU writes what the pointwise ENO reconstruction of the volume writes,
    reads nothing outside the volume, and leaves arrays the next call can use. *)
Theorem C64_eno_forgets :
  forall (V : cvars) dims g nx ny nz d k (ind : V -> R) u scratch left right start fin,
  1 <= dims <= 3 -> 0 <= d < dims -> (2 <= k <= 4)%nat -> Z.of_nat k <= g ->
  0 < nx -> 0 < ny -> 0 < nz -> (dims <= 1 -> ny = 1) -> (dims <= 2 -> nz = 1) ->
  ext dims g nx ny nz u -> usable k u scratch ->
  (forall j, 0 <= j <= 2 -> 0 <= start j /\ fin j <= 0) ->
  exists dd, usable k u dd /\
    eno_perform k ind (vload u) d u scratch left right start fin =
    (lr <- reconstruct dims (eno_recon k ind) d u left right start fin;; Ok (dd, lr)).
Proof.
  intros V dims g nx ny nz d k ind u scratch left right start fin Hd Hdd Hk Hg Hx Hy Hz F1 F2 Hu [Hl Hs] Hreg.
  destruct (extents_active u dims g nx ny nz) as [A B]; auto; try lia.
  assert (Hbig : 2 * Z.of_nat k < total u d).
  { destruct Hu as (E1 & E2 & E3). unfold total.
    destruct (Z.eqb_spec d 0); [lia|]. destruct (Z.eqb_spec d 1).
    - rewrite E2. destruct (Z.ltb_spec 1 dims); lia.
    - rewrite E3. destruct (Z.ltb_spec 2 dims); lia. }
  destruct (eno_perform_spec dims d k ind u start fin Hd Hdd Hk) with (ld := vload u) (scratch := scratch)
    (left := left) (right := right) as (dd & L & F & E); auto.
  - intros j Hj. apply Hreg. unfold dir in Hj. lia.
  - intros j Hj. apply Hreg. unfold dir in Hj. lia.
  - exists dd. split; [|exact E]. split; auto.
Qed.

(** Two calls in a row, for different directions or volumes: the second does not
    see the first. *)
Theorem C64_history_independent :
  forall (V : cvars) dims g nx ny nz d k (ind : V -> R) u scratch scratch' left right start fin,
  1 <= dims <= 3 -> 0 <= d < dims -> (2 <= k <= 4)%nat -> Z.of_nat k <= g ->
  0 < nx -> 0 < ny -> 0 < nz -> (dims <= 1 -> ny = 1) -> (dims <= 2 -> nz = 1) ->
  ext dims g nx ny nz u -> usable k u scratch -> usable k u scratch' ->
  ext dims g nx ny nz left -> ext dims g nx ny nz right ->
  (forall j, 0 <= j <= 2 -> 0 <= start j /\ fin j <= 0) ->
  exists lr dd dd',
    eno_perform k ind (vload u) d u scratch left right start fin = Ok (dd, lr) /\
    eno_perform k ind (vload u) d u scratch' left right start fin = Ok (dd', lr).
Proof.
  intros V dims g nx ny nz d k ind u s s' left right start fin Hd Hdd Hk Hg Hx Hy Hz F1 F2 Hu Hs Hs' Hl Hr Hreg.
  destruct (C64_eno_forgets V dims g nx ny nz d k ind u s left right start fin) as (dd & _ & E); auto.
  destruct (C64_eno_forgets V dims g nx ny nz d k ind u s' left right start fin) as (dd' & _ & E'); auto.
  rewrite E, E'.
  assert (exists lr, reconstruct dims (eno_recon k ind) d u left right start fin = Ok lr) as (lr & ->).
  2:{ exists lr, dd, dd'. auto. }
  assert (Hcomp : @compatible V (Flux2 (fun _ a _ => (a, 0%R))) (eno_recon k ind) (Z.of_nat k))
    by (split; cbn; [lia|exact I]).
  (* regions inside the interior of width k *)
  destruct (reconstruct_spec dims (Z.of_nat k) _ (eno_recon k ind) Hcomp d u left right start fin
    (fun j => ghost dims (Z.of_nat k) j + start j) (fun j => total u j - ghost dims (Z.of_nat k) j + fin j))
    as (l' & r' & E1 & _); auto; try lia.
  - unfold dir. lia.
  - intros j Hj. destruct (Hreg j); [unfold dir in Hj; lia|]. lia.
  - now apply (ext_same dims g nx ny nz u).
  - now apply (ext_same dims g nx ny nz u).
  - exists (l', r'). exact E1.
Qed.

(** C08 for ENO with its arrays: for the inner region the loops that fill the
    arrays and the reconstruction loop read no cell that the exchange writes. *)
Theorem C08_eno_no_race :
  forall (V : cvars) dims g nx ny nz d k (ind : V -> R) u scratch left right ws e,
  1 <= dims <= 3 -> 0 <= d < dims -> (2 <= k <= 4)%nat -> Z.of_nat k <= g ->
  0 < nx -> 0 < ny -> 0 < nz -> (dims <= 1 -> ny = 1) -> (dims <= 2 -> nz = 1) ->
  ext dims g nx ny nz u -> usable k u scratch -> ghost_writes dims g nx ny nz ws ->
  exists dd,
    eno_perform k ind (checked ws u e) d u scratch left right (ghost dims g) (fun j => - ghost dims g j) =
    (lr <- reconstruct dims (eno_recon k ind) d u left right (ghost dims g) (fun j => - ghost dims g j);;
     Ok (dd, lr)).
Proof.
  intros V dims g nx ny nz d k ind u scratch left right ws e Hd Hdd Hk Hg Hx Hy Hz F1 F2 Hu [Hl Hs] Hw.
  destruct (extents_active u dims g nx ny nz) as [A B]; auto; try lia.
  assert (Hbig : 2 * Z.of_nat k < total u d).
  { destruct Hu as (E1 & E2 & E3). unfold total.
    destruct (Z.eqb_spec d 0); [lia|]. destruct (Z.eqb_spec d 1).
    - rewrite E2. destruct (Z.ltb_spec 1 dims); lia.
    - rewrite E3. destruct (Z.ltb_spec 2 dims); lia. }
  destruct (eno_perform_spec dims d k ind u (ghost dims g) (fun j => - ghost dims g j) Hd Hdd Hk)
    with (ld := checked ws u e) (scratch := scratch) (left := left) (right := right) as (dd & L & F & E); auto.
  - intros j _. unfold ghost. destruct (j <? dims); lia.
  - intros j _. unfold ghost. destruct (j <? dims); lia.
  - intros x y z Hc. apply checked_interior with dims g nx ny nz; auto; try lia.
    apply inreg_iff. intros j Hj. specialize (Hc j Hj). cbv beta in Hc. unfold int_lo, int_hi. lia.
  - exists dd. exact E.
Qed.

(** A concrete run: ENO of order 3 on eight cells, with arrays holding rubbish. *)
Definition eno_u : vol scalar_cvars := mkvol 14 1 1 (fun q => IZR (q * q)).
Definition rubbish : vol R := mkvol 14 1 1 (fun q => IZR (1000 - q * 77)).
Example C64_hypotheses_met :
  ext (V := scalar_cvars) 1 3 8 1 1 eno_u /\ usable 3 eno_u [rubbish; rubbish] /\
  usable 3 eno_u [zero_vol 5 1 1; zero_vol 5 1 1].
Proof.
  split; [repeat split|]. split; (split; [reflexivity|]).
  - left. repeat constructor.
  - right. apply Forall_cons; [|apply Forall_cons; [|apply Forall_nil]]; intros E; vm_compute in E; discriminate E.
Qed.

(** Without the size test an array of another shape would be used: for an empty
    list of arrays (order 1, not offered by the factory) the first access is
    undefined. *)
Example C64_order_one_undefined :
  eno_perform (V := scalar_cvars) 1 (fun v => v) (vload eno_u) 0 eno_u [] eno_u eno_u (fun _ => 0) (fun _ => 0) = UB.
Proof. reflexivity. Qed.

Print Assumptions C64_eno_forgets.
Print Assumptions C64_history_independent.
Print Assumptions C08_eno_no_race.
