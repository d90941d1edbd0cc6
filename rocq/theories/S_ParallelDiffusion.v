(** What a diffusion operator adds, on fields. *)
From Coq Require Import ZArith Reals List Bool.
From Verif Require Import M_Base M_Vec M_Flux M_ParallelDiffusion S_Boundary S_Flux S_Sim.
Open Scope Z_scope.

Section S.
Context {V : cvars} {D : Type}.
Variables (dims g : Z).

(** The operator adds [term] in every interior cell of a grid of any size, whatever is
    left in its memory; [ok nx ny nz] says that the memory has the extents of the grid. *)
Definition adds_term (op : diff_op V D) (ok : Z -> Z -> Z -> D -> Prop) (term : field V -> cell -> V) : Prop :=
  forall nx ny nz u ds out, 0 < nx -> 0 < ny -> 0 < nz ->
    ext dims g nx ny nz u -> ext dims g nx ny nz out -> ok nx ny nz ds ->
    exists ds' out', op dims u ds out = Ok (ds', out') /\ ok nx ny nz ds' /\ ext dims g nx ny nz out' /\
      forall c, interior dims g nx ny nz c -> vget out' c = vadd (vget out c) (term (vget u) c).

(** The term of a cell depends on the cells that lie at most as many cells away along the
    axes as there are ghost cells, and on nothing else. *)
Definition on_star (term : field V -> cell -> V) : Prop :=
  forall (u v : field V) c c',
    (forall e j, 0 <= e < dims -> - g <= j <= g -> u (move e j c) = v (move e j c')) -> term u c = term v c'.
End S.
