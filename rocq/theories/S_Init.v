(** What the first state of a simulation should be. *)
From Coq Require Import ZArith List Reals String.
From Verif Require Import M_Base M_Foreach M_Sim M_Mpi M_Init S_Mpi.
Import ListNotations.
Open Scope Z_scope.

(** The value a configuration gives to a parameter: that of the sample if it has one. *)
Definition names_of (ps : parameters) : list string := map fst ps.
Definition given (configured sample : parameters) (name : string) (v : list R) : Prop :=
  In (name, v) sample \/ (~ In name (names_of sample) /\ In (name, v) configured).

(** A program sees the given parameters: numbers as numbers, arrays as arrays. *)
Definition sees (ns : namespace) (configured sample : parameters) : Prop :=
  forall name v, given configured sample name v ->
  (forall x, v = [x] -> ns name = Some (PNum x)) /\ (List.length v <> 1%nat -> ns name = Some (PArray v)).

(** Some library exports a name of a parameter. *)
Definition clash (math numpy : namespace) (configured sample : parameters) : Prop :=
  exists name, In name (names_of configured ++ names_of sample) /\ (math name <> None \/ numpy name <> None).

(** The centre of a cell. *)
Definition centre (gr : grid) (c : cell) (k : Z) : R := (gr_origin gr k + (IZR (at3 c k) + / 2) * gr_len gr k)%R.

Definition beside (c g : cell) : cell := (at3 c 0 + at3 g 0, at3 c 1 + at3 g 1, at3 c 2 + at3 g 2).

(** A volume for a grid, with [g] layers of ghost cells. *)
Definition volume_of {V} (gr : grid) (g : cell) (u : vol V) : Prop :=
  positive3 (gr_cells gr) /\ (forall k, 0 <= k < 3 -> 0 <= at3 g k) /\
  vnx u = at3 (gr_cells gr) 0 + 2 * at3 g 0 /\ vny u = at3 (gr_cells gr) 1 + 2 * at3 g 1 /\
  vnz u = at3 (gr_cells gr) 2 + 2 * at3 g 2 /\ vnx u * vny u * vnz u < two64.

(** A program that does not look at the indices. *)
Definition index_free (names : list string) (body : snippet) : Prop :=
  forall ns x y z i j k i' j' k', initial_data names body ns x y z i j k = initial_data names body ns x y z i' j' k'.
