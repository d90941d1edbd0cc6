(** Textbook Runge-Kutta schemes on fields. *)
From Coq Require Import ZArith Reals List.
From Verif Require Import M_Base M_Vec M_Sim.
Open Scope R_scope.

Section RK.
Context {V : cvars}.
Definition field : Type := cell -> V.
Definition fplus (a b : field) : field := fun c => vadd (a c) (b c).
Definition fmul (k : R) (a : field) : field := fun c => vscal k (a c).

Variable L : field -> field.

(** Explicit Euler. *)
Definition euler (h : R) (u : field) : field := fplus u (fmul h (L u)).
(** Heun's method: trapezoidal rule with an Euler predictor. *)
Definition heun (h : R) (u : field) : field :=
  let k1 := L u in
  let k2 := L (fplus u (fmul h k1)) in
  fplus u (fmul (h / 2) (fplus k1 k2)).
(** The third order SSP scheme of Shu and Osher. *)
Definition ssprk3 (h : R) (u : field) : field :=
  let u1 := euler h u in
  let u2 := fplus (fmul (3 / 4) u) (fmul (1 / 4) (euler h u1)) in
  fplus (fmul (1 / 3) u) (fmul (2 / 3) (euler h u2)).
(** The classical fourth order scheme. *)
Definition classic_rk4 (h : R) (u : field) : field :=
  let k1 := L u in
  let k2 := L (fplus u (fmul (h / 2) k1)) in
  let k3 := L (fplus u (fmul (h / 2) k2)) in
  let k4 := L (fplus u (fmul h k3)) in
  fplus u (fmul (h / 6) (fplus k1 (fplus (fmul 2 k2) (fplus (fmul 2 k3) k4)))).

Definition textbook (it : integrator) : R -> field -> field :=
  match it with
  | ForwardEuler => euler
  | RungeKutta2 => heun
  | RungeKutta3 => ssprk3
  | RungeKutta4 => classic_rk4
  end.

(** Taylor polynomial of exp(h L) applied to u, up to order p. *)
Fixpoint Lpow (k : nat) (u : field) : field :=
  match k with O => u | S k' => L (Lpow k' u) end.
Fixpoint taylor (p : nat) (h : R) (u : field) : field :=
  match p with
  | O => u
  | S p' => fplus (taylor p' h u) (fmul (h ^ p / INR (fact p)) (Lpow p u))
  end.
Definition linear : Prop :=
  (forall a b c, L (fplus a b) c = vadd (L a c) (L b c)) /\
  (forall k a c, L (fmul k a) c = vscal k (L a c)) /\
  (forall a b, (forall c, a c = b c) -> forall c, L a c = L b c).
Definition order (it : integrator) : nat :=
  match it with ForwardEuler => 1 | RungeKutta2 => 2 | RungeKutta3 => 3 | RungeKutta4 => 4 end.
End RK.
Arguments field : clear implicits.

From Verif Require Import M_Flux S_Boundary S_Flux.
(** The field with its ghost cells filled, and the right hand side of the
    semi-discrete problem: flux in minus flux out (not divided by cell lengths). *)
Definition bc_image (b : bckind) : Z -> Z -> Z -> Z :=
  match b with Periodic => periodic1 | Neumann => mirror1 end.
Definition filled {V : cvars} (b : bckind) (dims g nx ny nz : Z) (u : field V) : field V :=
  fun c => u (image (bc_image b) dims g nx ny nz c).
Definition semidiscrete {V : cvars} (b : bckind) (dims g nx ny nz : Z) (fx : numflux V) (rc : recon V)
    (u : field V) : field V :=
  rhs dims fx rc (filled b dims g nx ny nz u).

(** Number of cells of a volume, ghost cells included. *)
Definition total_cells (dims g nx ny nz : Z) : Z :=
  (nx + 2 * g) * (if (1 <? dims)%Z then ny + 2 * g else ny) * (if (2 <? dims)%Z then nz + 2 * g else nz).

(** The solution a simulator holds. *)
Definition solution {V : cvars} {Sc : Type} (st : sim V Sc) : field V :=
  match s_vols st with u :: _ => vget u | nil => fun _ => vzero end.

(** A simulator between two steps: all volumes have the extents of the grid and
    the ghost cells of the solution are filled. *)
Definition scratch_ext {V : cvars} (dims g nx ny nz : Z) (sc : vol V * vol V * vol V) : Prop :=
  let '(l, r, t) := sc in
  ext dims g nx ny nz l /\ ext dims g nx ny nz r /\ ext dims g nx ny nz t.
Definition ready {V : cvars} (it : integrator) (b : bckind) (dims g nx ny nz : Z)
    (st : sim V (vol V * vol V * vol V)) : Prop :=
  Forall (ext dims g nx ny nz) (s_vols st) /\ length (s_vols st) = S (substeps it) /\
  (forall c, in_volume dims g nx ny nz c ->
     solution st c = solution st (image (bc_image b) dims g nx ny nz c)) /\
  scratch_ext dims g nx ny nz (s_sys st).

(** Flux difference in direction [d] at cell [c]. *)
Definition flux_diff {V : cvars} (fx : numflux V) (rc : recon V) (d : Z) (u : field V) (c : cell) : V :=
  vadd (fst (iface fx rc d u (move d (-1) c))) (vscal (-1) (fst (iface fx rc d u c))).

(** dt times the sum of the differences, each divided by its cell length. *)
Definition scaled_update {V : cvars} (dims : Z) (fx : numflux V) (rc : recon V) (len : Z -> R) (dt : R)
    (u : field V) (c : cell) : V :=
  fold_left (fun a d => vadd a (vscal (dt / len d) (flux_diff fx rc d u c))) (zrange 0 dims) vzero.
