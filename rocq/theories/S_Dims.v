(** Vectors of an equation and directions of a grid. *)
From Coq Require Import ZArith String.
Open Scope string_scope.

(** The number in the name of an Euler equation counts the components of momentum
    and velocity; the other equations have no vectors. *)
Definition has_component (equation : string) (direction : Z) : Prop :=
  (equation = "euler1" -> (direction < 1)%Z) /\
  (equation = "euler2" -> (direction < 2)%Z) /\
  (equation = "euler3" -> (direction < 3)%Z).

(** Directions in which a grid of nx * ny * nz cells extends. *)
Definition grid_direction (ny nz d : Z) : Prop :=
  d = 0%Z \/ (d = 1 /\ (ny > 1 \/ nz > 1))%Z \/ (d = 2 /\ nz > 1)%Z.
