(** Model of the distribution of samples over processes.
    Code: /repo/alsuq/src/mpi/SimpleLoadBalancer.cpp,
    /repo/alsutils/src/mpi/Configuration.cpp lines 50-56,
    /repo/alsuq/src/config/Setup.cpp lines 64-108. *)
From Coq Require Import ZArith List Bool Lia.
From Verif Require Import M_Base.
Import ListNotations.
Open Scope Z_scope.

(** Product of two C++ [int]: signed overflow is undefined behaviour. *)
Definition imul (a b : Z) : res Z :=
  if (- 2 ^ 31 <=? a * b) && (a * b <? 2 ^ 31) then Ok (a * b) else UB.

(** Conversion of an [int] to [size_t], as in [totalNumberOfSamples % multiSample]. *)
Definition size_of_int (m : Z) : Z := m mod 2 ^ 64.

(** A communicator as one process sees it: its rank in it and the number of
    its processes (Configuration.hpp getRank, getNumberOfProcesses), plus the
    global ranks that belong to it. *)
Record comm : Type := mkcomm {
  crank : Z;
  csize : Z;
  cmembers : list Z
}.

(** MPI_Comm_split as called in Configuration.cpp line 53, for the communicator
    of the global ranks [0 .. np-1]: the processes with the same color form a
    new communicator and are ranked in it by key, ties by old rank.  This is
    the MPI standard's contract; MPI itself is not modelled. *)
Definition comm_split (np : Z) (color key : Z -> Z) (r : Z) : comm :=
  let same := filter (fun q => color q =? color r) (zrange 0 np) in
  let before := filter (fun q => (key q <? key r) || ((key q =? key r) && (q <? r))) same in
  mkcomm (Z.of_nat (length before)) (Z.of_nat (length same)) same.

(** The loop of SimpleLoadBalancer.cpp lines 82-97. *)
Definition take_samples (samples : list Z) (lo hi : Z) : res (list Z) :=
  for_ lo hi (fun i acc =>
    if Z.of_nat (length samples) <=? i then Throw
    else Ok (acc ++ [nth (Z.to_nat i) samples 0])) [].

(** SimpleLoadBalancer::loadBalance, SimpleLoadBalancer.cpp lines 27-101, on
    global rank [r] of [np]: the samples of the process, the statistical and
    the spatial communicator.  [/] and [%] on [int] truncate.  The product of
    [size_t] in lines 82-83 is taken without wrap-around. *)
Definition load_balance (ms sx sy sz np : Z) (samples : list Z) (r : Z)
  : res (list Z * comm * comm) :=
  p1 <- imul ms sx;; p2 <- imul p1 sy;; p3 <- imul p2 sz;;
  if negb (p3 =? np) then Throw
  else
    let total := Z.of_nat (length samples) in
    if size_of_int ms =? 0 then UB
    else if negb (total mod size_of_int ms =? 0) then Throw
    else
      let per := total / size_of_int ms in
      q1 <- imul sx sy;; pps <- imul q1 sz;;
      if pps =? 0 then UB
      else
        let stat q := Z.quot q pps in
        let spat q := Z.rem q pps in
        let statc := comm_split np spat stat r in
        let spatc := comm_split np stat spat r in
        l <- take_samples samples (per * crank statc) (per * (crank statc + 1));;
        Ok (l, statc, spatc).

(** The sample list built by Setup::makeRunner, Setup.cpp lines 70-75. *)
Definition all_samples (start count : Z) : list Z :=
  map (fun i => start + i) (zrange 0 count).
