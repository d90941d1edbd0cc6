(** What structure functions are, independently of the loops. *)
From Coq Require Import ZArith Reals List Bool.
From Verif Require Import M_Base S_Boundary S_Sum S_Memory M_Structure.
Import ListNotations.
Open Scope Z_scope.

(** Maximum norm. *)
Definition max_norm (o : cell) : Z :=
  let '(x, y, z) := o in Z.max (Z.abs x) (Z.max (Z.abs y) (Z.abs z)).

(** Offsets along the first [dims] directions only. *)
Definition along (dims : Z) (o : cell) : Prop :=
  let '(x, y, z) := o in (1 < dims \/ y = 0) /\ (2 < dims \/ z = 0).

Definition plus (a b : cell) : cell :=
  let '(x, y, z) := a in let '(x', y', z') := b in (x + x', y + y', z + z').

(** Sum over the offsets of maximum norm [h]. *)
Definition shell_sum (dims h : Z) (f : cell -> R) : R :=
  sum3 (fun k => if k <? dims then - h else 0) (fun k => if k <? dims then h + 1 else 1)
    (fun o => if max_norm o =? h then f o else 0%R).

(** Interior cell [c], counted without ghost cells, of the area [u]. *)
Definition interior_value (g : cell) (u : vol R) (c : cell) : R := vget u (plus c g).

(** The periodic extension of the interior, and its extension by the nearest
    interior cell. *)
Definition wrap (n x : Z) : Z := x mod n.
Definition nearest (n x : Z) : Z := if x <? 0 then 0 else if n <=? x then n - 1 else x.
Definition extended (b : btype) (g n : cell) (u : vol R) (c : cell) : R :=
  let '(x, y, z) := c in
  let '(nx, ny, nz) := n in
  match b with
  | Periodic => interior_value g u (wrap nx x, wrap ny y, wrap nz z)
  | Neumann => interior_value g u (nearest nx x, nearest ny y, nearest nz z)
  | OtherBC => 0%R
  end.

Definition cells_of (n : cell) : Z := let '(nx, ny, nz) := n in nx * ny * nz.

(** Mean over all interior cells. *)
Definition interior_mean (n : cell) (f : cell -> R) : R :=
  (sum3 (fun _ => 0%Z) (comp n) f / IZR (cells_of n))%R.

(** The structure function of order [p] at distance [h] in maximum norm. *)
Definition structure_cube_value (b : btype) (dims : Z) (p : nat) (g n : cell) (u : vol R) (h : Z) : R :=
  interior_mean n (fun c => shell_sum dims h (fun o =>
    Rabs (interior_value g u c - extended b g n u (plus c o)) ^ p)%R).

(** [h] times the unit vector of direction [d]. *)
Definition step (d h : Z) : cell := (h * b2z (d =? 0), h * b2z (d =? 1), h * b2z (d =? 2)).

(** The structure function of order [p] in direction [d]. *)
Definition structure_value (b : btype) (p : nat) (d : Z) (g n : cell) (u : vol R) (h : Z) : R :=
  interior_mean n (fun c => Rabs (interior_value g u c - extended b g n u (plus c (step d h))) ^ p)%R.

(** The two-point structure function. *)
Definition two_point_value (d1 d2 : Z) (g n : cell) (u : vol R) (h1 h2 : Z) : R :=
  interior_mean n (fun c =>
    (extended Neumann g n u (plus c (step d1 h1)) - interior_value g u c) ^ 2 *
    (extended Neumann g n u (plus c (step d2 h2)) - interior_value g u c))%R.

(** The area has [n] interior cells and [g] ghost cells per side. *)
Definition has_cells (g n : cell) (u : vol R) : Prop :=
  let '(nx, ny, nz) := n in
  let '(gx, gy, gz) := g in
  vnx u = nx + 2 * gx /\ vny u = ny + 2 * gy /\ vnz u = nz + 2 * gz.
Definition positive_cells (n : cell) : Prop := let '(nx, ny, nz) := n in 0 < nx /\ 0 < ny /\ 0 < nz.
Definition nonneg_cells (g : cell) : Prop := let '(gx, gy, gz) := g in 0 <= gx /\ 0 <= gy /\ 0 <= gz.

(** A grid of dimension 1, 2 or 3 has one cell in the other directions and no
    more than that only there. *)
Definition grid_of_dimension (dims : Z) (n : cell) : Prop :=
  let '(nx, ny, nz) := n in
  (dims = 1 /\ ny = 1 /\ nz = 1) \/ (dims = 2 /\ 1 < ny /\ nz = 1) \/ (dims = 3 /\ 1 < ny /\ 1 < nz).
