(** What it means that two runs agree up to a change of the point of view. *)
From Coq Require Import ZArith Reals List Bool.
From Verif Require Import M_Base M_Vec M_Flux M_Sim S_Boundary S_Flux S_Sum S_Sim.
Import ListNotations.
Open Scope Z_scope.

(** The check after a step accepts exactly the volumes whose cells are all admissible
    (ghost cells included; C50). *)
Definition checks_all {V : cvars} (dims g nx ny nz : Z) (ok : V -> bool) (obeys : vol V -> bool) : Prop :=
  forall v, ext dims g nx ny nz v ->
    (obeys v = true <-> forall c, in_volume dims g nx ny nz c -> ok (vget v c) = true).

(** Both runs reach the same time in the same number of steps with related solutions, or
    both throw. *)
Definition agree {V W : cvars} {Sc Sd : Type} (P : field V -> field W -> Prop)
    (r : res (sim V Sc)) (r' : res (sim W Sd)) : Prop :=
  (exists st st', r = Ok st /\ r' = Ok st' /\ s_time st' = s_time st /\ s_steps st' = s_steps st /\
     P (solution st) (solution st')) \/
  (r = Throw /\ r' = Throw).

(** * Runs *)

(** [nx] x [ny] x [nz] cells, at least as many as ghost cells in each direction, and few
    enough for the int counters. *)
Definition fits_grid (dims g nx ny nz : Z) : Prop :=
  0 < nx /\ 0 < ny /\ 0 < nz /\ g <= nx /\ (1 < dims -> g <= ny) /\ (2 < dims -> g <= nz) /\
  total_cells dims g nx ny nz < 2 ^ 31.
(** [u0] holds the initial data, [rest] and [sc] the other volumes, with any content. *)
Definition volumes {V : cvars} (it : integrator) (dims g nx ny nz : Z) (u0 : vol V) (rest : list (vol V))
    (sc : vol V * vol V * vol V) : Prop :=
  Forall (ext dims g nx ny nz) (u0 :: rest) /\ length rest = substeps it /\ scratch_ext dims g nx ny nz sc.

(** * Maps of the cells *)
Definition pos (k : Z) (c : cell) : Z := let '(x, y, z) := c in nvec x y z k.
(** The axes [a] and [e] change places. *)
Definition swap_axis (a e k : Z) : Z := if k =? a then e else if k =? e then a else k.
Definition swap_cell (a e : Z) (c : cell) : cell :=
  (pos (swap_axis a e 0) c, pos (swap_axis a e 1) c, pos (swap_axis a e 2) c).
(** The grid with its cell lengths exchanged as well. *)
Definition swap_params (a e : Z) (p : params) : params :=
  mkparams (fun d => p_len p (swap_axis a e d)) (p_cfl p) (p_wadj p).
(** The interior, [n j] cells behind [g] ghost cells along the axis j, reflected along the
    axes in [flip]. *)
Definition reflect_cell (g : Z) (n : Z -> Z) (flip : Z -> bool) (c : cell) : cell :=
  let at_ j := if flip j then 2 * g + n j - 1 - pos j c else pos j c in (at_ 0, at_ 1, at_ 2).
(** Rotated by [m] cells along the axis [k]. *)
Definition rotate_cell (g n k m : Z) (c : cell) : cell :=
  let at_ j := if j =? k then g + (pos j c - g + m) mod n else pos j c in (at_ 0, at_ 1, at_ 2).

(** * Fluxes and reconstructions in another point of view *)
Section Flux.
Context {V W : cvars}.

(** [fx'] in the direction [d'] is [fx] in the direction [d] for records seen through
    [tau]. *)
Definition carries (tau : V -> W) (fx : numflux V) (d : Z) (fx' : numflux W) (d' : Z) : Prop :=
  match fx, fx' with
  | Flux2 f, Flux2 f' => forall l r, f' d' (tau l) (tau r) = (tau (fst (f d l r)), snd (f d l r))
  | FluxN st f, FluxN st' f' => st' = st /\ forall us, length us = length st ->
      f' d' (map tau us) = (tau (fst (f d us)), snd (f d us))
  | _, _ => False
  end.
Definition carries_recon (tau : V -> W) (rc : recon V) (rc' : recon W) : Prop :=
  rec_ghosts rc' = rec_ghosts rc /\
  forall us, Z.of_nat (length us) = 2 * rec_ghosts rc - 1 ->
    rec_fun rc' (map tau us) = (tau (fst (rec_fun rc us)), tau (snd (rec_fun rc us))).
End Flux.

(** Seen in a mirror: left and right change places, the flux changes its sign. *)
Definition mirrors {V : cvars} (tau : V -> V) (fx : numflux V) (d : Z) : Prop :=
  match fx with
  | Flux2 f => forall l r, f d (tau r) (tau l) = (vscal (-1) (tau (fst (f d l r))), snd (f d l r))
  | FluxN st f => rev (map (fun s => 1 - s) st) = st /\ forall us, length us = length st ->
      f d (rev (map tau us)) = (vscal (-1) (tau (fst (f d us))), snd (f d us))
  end.
Definition mirrors_recon {V : cvars} (tau : V -> V) (rc : recon V) : Prop :=
  forall us, Z.of_nat (length us) = 2 * rec_ghosts rc - 1 ->
    rec_fun rc (rev (map tau us)) = (tau (snd (rec_fun rc us)), tau (fst (rec_fun rc us))).
