(** Model of the statistics over samples.
    Code: /repo/alsuq/src/stats/ (StatisticsHelper.cpp, MeanVariance.cpp,
    OnePointMoment.cpp, BoundedVariation.cpp, BoundedVariationDirection.cpp,
    FunctionalStatistics.cpp), /repo/alsuq/src/run/Runner.cpp lines 39-90.

    One conserved variable is followed; the C++ does the same for each variable.
    The time of a snapshot is a double used as a map key: here an integer that
    stands for its place in the order of the doubles.  Likewise the name of a
    snapshot is an integer standing for its place in the alphabetical order. *)
From Coq Require Import ZArith Reals List Bool.
From Verif Require Import M_Base M_Sim M_Memory.
Import ListNotations.
Open Scope Z_scope.

Definition key : Type := (Z * Z)%type.
Definition key_eqb (a b : key) : bool := (fst a =? fst b) && (snd a =? snd b).
Definition key_ltb (a b : key) : bool :=
  (fst a <? fst b) || ((fst a =? fst b) && (snd a <? snd b)).

(** [snapshots], StatisticsHelper.hpp: a map from time to a map from name to
    snapshot.  Both maps iterate in key order, so the nested maps are one list
    in lexicographic order. *)
Definition snaps : Type := list (key * vol R).

Fixpoint lookup (k : key) (st : snaps) : option (vol R) :=
  match st with
  | [] => None
  | (k', v) :: st' => if key_eqb k k' then Some v else lookup k st'
  end.

Fixpoint insert (k : key) (v : vol R) (st : snaps) : snaps :=
  match st with
  | [] => [(k, v)]
  | (k', v') :: st' => if key_ltb k k' then (k, v) :: st else (k', v') :: insert k v st'
  end.

Fixpoint replace (k : key) (v : vol R) (st : snaps) : snaps :=
  match st with
  | [] => []
  | (k', v') :: st' => if key_eqb k k' then (k, v) :: st' else (k', v') :: replace k v st'
  end.

(** A new memory area (HostMemory.cpp lines 36-37 fill it with 42). *)
Definition new_area (d : cell) : vol R :=
  let '(nx, ny, nz) := d in mkvol nx ny nz (fun _ => 42%R).

(** findOrCreateSnapshot, StatisticsHelper.cpp lines 102-125 and 127-161: a new
    snapshot is zeroed. *)
Definition find_or_create (k : key) (d : cell) (st : snaps) : res snaps :=
  match lookup k st with
  | Some _ => Ok st
  | None => v <- mem_zero (new_area d);; Ok (insert k v st)
  end.

(** A statistic keeps some named snapshots; [it_dims] are the extents of the
    snapshot for a given volume, [it_update s u] is the new snapshot after the
    volume [u]. *)
Record item : Type := mkitem {
  it_name : Z;
  it_dims : vol R -> cell;
  it_update : vol R -> vol R -> res (vol R)
}.
Definition statistic : Type := list item.

Definition update_item (it : item) (t : Z) (u : vol R) (st : snaps) : res snaps :=
  match lookup (t, it_name it) st with
  | None => UB
  | Some v => v' <- it_update it v u;; Ok (replace (t, it_name it) v' st)
  end.

(** computeStatistics: all snapshots are found or created, then updated. *)
Definition compute_statistics (s : statistic) (call : Z * vol R) (st : snaps) : res snaps :=
  let '(t, u) := call in
  st1 <- fold_res (fun it st => find_or_create (t, it_name it) (it_dims it u) st) s st;;
  fold_res (fun it st => update_item it t u st) s st1.

(** All calls made on one process, Runner.cpp lines 42-78. *)
Definition process (s : statistic) (calls : list (Z * vol R)) : res snaps :=
  fold_res (compute_statistics s) calls [].

(** MPI_Reduce of one area, StatisticsHelper.cpp lines 63-68; [red] is what the
    MPI library makes of the contributions of one element.  The count is an int.
    Counts that differ are an error in MPI. *)
Definition reduce_area (red : list R -> R) (v : vol R) (ws : list (vol R)) : res (vol R) :=
  if (0 <=? int32 (vsize v)) && forallb (fun w => int32 (vsize w) =? int32 (vsize v)) ws
  then Ok (mkvol (vnx v) (vny v) (vnz v) (fun i =>
    if i <? int32 (vsize v) then red (vdat v i :: map (fun w => vdat w i) ws) else 42%R))
  else UB.

(** The heads and tails of all lists; the calls of MPI_Reduce are matched in
    order, one process without a further call is an error (a hang). *)
Fixpoint split_heads (others : list snaps) : res (list (vol R) * list snaps) :=
  match others with
  | [] => Ok ([], [])
  | [] :: _ => UB
  | ((_, v) :: st) :: os =>
      r <- split_heads os;; let '(vs, sts) := r in Ok (v :: vs, st :: sts)
  end.

(** No snapshot left to reduce. *)
Definition no_more (st : snaps) : bool := match st with [] => true | _ => false end.

(** combineStatistics on rank 0, lines 35-79: the reduced area is copied back and
    divided by the number of samples of the configuration. *)
Fixpoint combine_statistics (red : list R -> R) (samples : R) (root : snaps) (others : list snaps)
  : res snaps :=
  match root with
  | [] => if forallb no_more others then Ok [] else UB
  | (k, v) :: root' =>
      r <- split_heads others;;
      let '(ws, tails) := r in
      dataReduced <- reduce_area red v ws;;
      v1 <- mem_copy v dataReduced;;
      v2 <- mem_divs v1 samples;;
      rest <- combine_statistics red samples root' tails;;
      Ok ((k, v2) :: rest)
  end.

(** All processes; the first is rank 0 (Runner.cpp lines 80-82). *)
Fixpoint mapM {A B} (f : A -> res B) (l : list A) : res (list B) :=
  match l with
  | [] => Ok []
  | a :: l' => b <- f a;; bs <- mapM f l';; Ok (b :: bs)
  end.
Definition run_statistics (s : statistic) (red : list R -> R) (samples : R)
    (calls : list (list (Z * vol R))) : res snaps :=
  sts <- mapM (process s) calls;;
  match sts with
  | [] => UB
  | root :: others => combine_statistics red samples root others
  end.

(** * The statistics offered *)

(** conservedVariables.makeInstance(): the extents of the volume. *)
Definition dims_of (u : vol R) : cell := (vnx u, vny u, vnz u).

(** MeanVariance.cpp lines 30-53: names "mean" and "variance". *)
Definition n_mean : Z := 0.
Definition n_variance : Z := 1.
Definition mean_variance : statistic :=
  [mkitem n_mean dims_of (fun s u => mem_add s u);
   mkitem n_variance dims_of (fun s u => mem_addpower s u 2)].

(** MeanVariance::finalizeStatistics, lines 55-67, on rank 0 (Runner.cpp lines
    83-84). *)
Definition finalize_mean_variance (st : snaps) : res snaps :=
  fold_res (fun k st =>
    if snd k =? n_variance then
      match lookup k st, lookup (fst k, n_mean) st with
      | Some v, Some m => v' <- mem_subpower v m 2;; Ok (replace k v' st)
      | _, _ => UB
      end
    else Ok st) (map fst st) st.

(** OnePointMoment.cpp lines 31-45. *)
Definition one_point_moment (p : Z) : statistic :=
  [mkitem 0 dims_of (fun s u => mem_addpower s u p)].

(** The interior box used by the bounded variation statistics,
    BoundedVariation.cpp lines 42-44; [g] are the ghost cells of the volume. *)
Definition bv_stop (g : cell) (u : vol R) : cell :=
  let '(gx, gy, gz) := g in (vnx u - gx, vny u - gy, vnz u - gz).

(** BoundedVariation.cpp lines 34-52: getPointer()[0] += getTotalVariation. *)
Definition bounded_variation (p : Z) (g : cell) : statistic :=
  [mkitem 0 (fun _ => (1, 1, 1)) (fun s u =>
     tv <- total_variation u p g (bv_stop g u);; a <- mload s 0;; mstore s 0 (a + tv)%R)].

(** BoundedVariationDirection.cpp lines 36-78: getPointer()[0] = getTotalVariation
    (an assignment) in each direction the volume has; getDimensions is
    Volume.cpp lines 279-287. *)
Definition dimensions (u : vol R) : Z :=
  if vny u =? 1 then 1 else if vnz u =? 1 then 2 else 3.
Definition bv_item (d p : Z) (g : cell) : item :=
  mkitem d (fun _ => (1, 1, 1)) (fun s u =>
    if d <? dimensions u
    then tv <- total_variation_dir u d p g (bv_stop g u);; mstore s 0 tv
    else Ok s).
Definition bounded_variation_direction (p : Z) (g : cell) : statistic :=
  [bv_item 0 p g; bv_item 1 p g; bv_item 2 p g].

(** FunctionalStatistics.cpp lines 43-67: the functional is called on the
    snapshot with weight 1. [F out in weight] is the functional. *)
Definition functional_statistic (size : vol R -> cell) (F : vol R -> vol R -> R -> res (vol R)) : statistic :=
  [mkitem 0 size (fun s u => F s u 1%R)].
