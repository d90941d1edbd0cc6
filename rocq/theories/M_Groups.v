(** The NetCDF files of a run over many samples: names, groups and batches.
    Code: /repo/alsuq/src/run/FiniteVolumeSimulatorCreator.cpp,
    /repo/alsuq/src/run/Runner.cpp lines 42-78, /repo/alsuq/src/io/MPIWriterFactory.cpp
    lines 64-67, /repo/alsfvm/src/io/NetCDFMPIWriter.cpp,
    /repo/alsfvm/src/io/io_utils.cpp.  Dimensions, attributes, the run report and
    the variable "time" are left out. *)
From Coq Require Import ZArith List Bool String Ascii DecimalString DecimalZ.
From Verif Require Import M_Base M_Output.
Import ListNotations.
Open Scope Z_scope.

(** std::to_string and operator<< on a size_t. *)
Definition to_string (k : Z) : string := NilZero.string_of_int (Z.to_int k).

(** One entry of makeGroupNames, FiniteVolumeSimulatorCreator.cpp line 81. *)
Definition group_name (sample : Z) : string := ("sample_" ++ to_string sample)%string.

(** getOutputname, io_utils.cpp lines 33-39, with the extension added in
    NetCDFWriter::getFilename, NetCDFWriter.cpp lines 134-141. *)
Definition file_name (base : string) (snapshot : Z) : string :=
  (base ++ "_" ++ to_string snapshot ++ ".nc")%string.

(** The name of a variable in the file, NetCDFMPIWriter.cpp lines 139-145. *)
Definition memory_name (group var : string) : string :=
  (match group with EmptyString => "" | _ => group ++ "_" end ++ var)%string.

(** A file: its variables in the order of their definition; a variable is
    identified by its place. *)
Definition ncfile : Type := list (string * fvar).
Definition filesystem : Type := string -> option ncfile.

(** The outcome of a run of several processes: [Hung] means that some processes
    wait for ever in a collective operation the others do not call. *)
Inductive outcome (A : Type) : Type := Done (a : A) | Failed | Hung.
Arguments Done {A} a.
Arguments Failed {A}.
Arguments Hung {A}.
Definition obind {A B} (r : outcome A) (f : A -> outcome B) : outcome B :=
  match r with Done a => f a | Failed => Failed | Hung => Hung end.

(** ncmpi_def_var: an error if the name is taken. *)
Definition def_var (f : ncfile) (name : string) (global : cell) : outcome (ncfile * nat) :=
  if existsb (fun e => String.eqb (fst e) name) f then Failed
  else Done (f ++ [(name, new_fvar global)], List.length f).

(** NetCDFMPIWriter::makeDataset, lines 126-160, as one process with group index
    [gi] runs it: the file and the ids collected.  All processes run it on the same
    file with the same names, so the file is the same for all of them. *)
Fixpoint make_vars (f : ncfile) (global : cell) (group : string) (mine : bool) (vars : list string)
    (acc : list nat) : outcome (ncfile * list nat) :=
  match vars with
  | [] => Done (f, acc)
  | v :: vars' =>
      obind (def_var f (memory_name group v) global) (fun fd =>
        make_vars (fst fd) global group mine vars' (if mine then acc ++ [snd fd] else acc))
  end.
Fixpoint make_dataset (f : ncfile) (global : cell) (own : string) (groups vars : list string)
    (acc : list nat) : outcome (ncfile * list nat) :=
  match groups with
  | [] => Done (f, acc)
  | g :: groups' =>
      obind (make_vars f global g (String.eqb g own) vars acc) (fun fa =>
        make_dataset (fst fa) global own groups' vars (snd fa))
  end.

(** Update of the variable with a given id by [w], the writes of all processes of
    one sample ([netcdf_mpi_write]). *)
Fixpoint put_var (f : ncfile) (id : nat) (w : fvar -> res fvar) : outcome ncfile :=
  match f, id with
  | [], _ => Failed
  | (nm, x) :: f', O => match w x with Ok x' => Done ((nm, x') :: f') | _ => Failed end
  | e :: f', S id' => obind (put_var f' id' w) (fun r => Done (e :: r))
  end.

(** NetCDFMPIWriter::writeVolume, lines 220-230, of one sample.  [datasets[i]] past
    the end is undefined; here it fails. *)
Fixpoint write_volume (f : ncfile) (ids : list nat) (ws : list (fvar -> res fvar)) : outcome ncfile :=
  match ws, ids with
  | [], _ => Done f
  | w :: ws', id :: ids' => obind (put_var f id w) (fun f' => write_volume f' ids' ws')
  | _ :: _, [] => Failed
  end.

(** The samples [samples] of one batch, one per statistical rank, write their next
    snapshot together: NetCDFMPIWriter::write, lines 44-98.  [data k] are the
    writes of the variables of sample [k].  The file is created when [new_file]
    (line 57, an existing file is replaced) and opened otherwise (line 81, an error
    if it is missing). *)
Definition write_members (f : ncfile) (global : cell) (groups vars : list string)
    (data : Z -> list (fvar -> res fvar)) (samples : list Z) : outcome ncfile :=
  fold_left (fun r k => obind r (fun f' =>
    obind (make_dataset f global (group_name k) groups vars []) (fun fa =>
      write_volume f' (snd fa) (data k)))) samples
    (match samples with
     | [] => Done f
     | k :: _ => obind (make_dataset f global (group_name k) groups vars []) (fun fa => Done (fst fa))
     end).
Definition collective_write (fs : filesystem) (name : string) (new_file : bool) (global : cell)
    (vars : list string) (data : Z -> list (fvar -> res fvar)) (samples : list Z) : outcome filesystem :=
  obind (if new_file then Done [] else match fs name with Some f => Done f | None => Failed end) (fun f =>
  obind (write_members f global (map group_name samples) vars data samples) (fun f' =>
    Done (fun n => if String.eqb n name then Some f' else fs n))).

(** One batch: the simulators write snapshot after snapshot (each has its own
    writer, which counts from 0: NetCDFWriter.hpp line 110).  [snaps k] are the
    snapshots of sample [k].  Every write is collective over all processes. *)
Fixpoint batch_from (fuel : nat) (fs : filesystem) (base : string) (new_file : bool) (global : cell)
    (vars : list string) (snaps : Z -> list (list (fvar -> res fvar))) (samples : list Z) (t : nat)
    : outcome filesystem :=
  match fuel with
  | O => Done fs
  | S fuel' =>
      if forallb (fun k => Nat.leb (List.length (snaps k)) t) samples then Done fs
      else if forallb (fun k => Nat.ltb t (List.length (snaps k))) samples then
        obind (collective_write fs (file_name base (Z.of_nat t)) new_file global vars
                 (fun k => nth t (snaps k) []) samples)
          (fun fs' => batch_from fuel' fs' base new_file global vars snaps samples (S t))
      else Hung
  end.
Definition longest (snaps : Z -> list (list (fvar -> res fvar))) (samples : list Z) : nat :=
  fold_right (fun k m => Nat.max (List.length (snaps k)) m) O samples.
Definition batch (fs : filesystem) (base : string) (new_file : bool) (global : cell)
    (vars : list string) (snaps : Z -> list (list (fvar -> res fvar))) (samples : list Z)
    : outcome filesystem :=
  batch_from (longest snaps samples) fs base new_file global vars snaps samples O.

(** Runner::run, lines 42-78, on all processes together: [batches] lists, for each
    turn of the loop, the samples of the statistical ranks in their order.
    createSimulator passes [firstCall] as [new_file]
    (FiniteVolumeSimulatorCreator.cpp lines 43-49). *)
Fixpoint uq_run (fs : filesystem) (base : string) (first_call : bool) (global : cell)
    (vars : list string) (snaps : Z -> list (list (fvar -> res fvar))) (batches : list (list Z))
    : outcome filesystem :=
  match batches with
  | [] => Done fs
  | b :: rest =>
      obind (batch fs base first_call global vars snaps b) (fun fs' =>
        uq_run fs' base false global vars snaps rest)
  end.

(** The turns of the loop, from the lists of the statistical ranks (of equal length,
    C22). *)
Definition turns (lists : list (list Z)) (count : nat) : list (list Z) :=
  map (fun b => map (fun l => nth b l 0) lists) (seq 0 count).
