(** The output files: where a snapshot ends up in a NetCDF or HDF5 file.
    Code: /repo/alsfvm/src/io/NetCDFWriter.cpp, NetCDFMPIWriter.cpp,
    HDF5Writer.cpp, HDF5MPIWriter.cpp.  One variable of the volume is modelled;
    the writers treat the variables one after the other in the same way
    (NetCDFWriter.cpp lines 111-121, NetCDFMPIWriter.cpp lines 220-230,
    HDF5Writer.cpp lines 88-93).  Attributes, reports, the time variable and the
    conversion of [real] to the type in the file are left out. *)
From Coq Require Import ZArith Reals List Bool.
From Verif Require Import M_Base M_Sim M_Memory M_Mpi.
Import ListNotations.
Open Scope Z_scope.

(** A three-dimensional variable in a file: its extents in the order of the
    dimension list given to nc_def_var, and its elements; [None] is an element
    that was never written. *)
Record fvar : Type := mkfvar { fv_dims : cell; fv_dat : cell -> option R }.

(** The new variable of extents [n]: nc_def_var, NetCDFWriter.cpp lines 76-91 and
    127-129 and NetCDFMPIWriter.cpp lines 105-121 and 148-150 (dimensions "x", "y",
    "z" in this order); H5Dcreate, HDF5Writer.cpp lines 118-131. *)
Definition new_fvar (n : cell) : fvar := mkfvar n (fun _ => None).

(** The box with corner [start] and extents [count]. *)
Definition in_slab (start count c : cell) : bool :=
  forallb (fun k => (at3 start k <=? at3 c k) && (at3 c k <? at3 start k + at3 count k)) [0; 1; 2].

(** The contract of ncmpi_put_vara, of nc_put_var, and of H5Dwrite with a hyperslab
    selection: the box must lie in the variable, an error code is turned into an
    exception (NETCDF_SAFE_CALL, /repo/alsfvm/include/alsfvm/io/netcdf_utils.hpp
    lines 21-27; HDF5_SAFE_CALL); the buffer is read with the last index of the
    variable running fastest, past its end is [UB].  The libraries themselves are
    not modelled. *)
Definition put_slab (f : fvar) (start count : cell) (data : vol R) : res fvar :=
  if negb (forallb (fun k => (0 <=? at3 start k) && (0 <=? at3 count k) &&
             (at3 start k + at3 count k <=? at3 (fv_dims f) k)) [0; 1; 2])
  then Throw
  else if vsize data <? at3 count 0 * at3 count 1 * at3 count 2 then UB
  else Ok (mkfvar (fv_dims f) (fun c =>
    if in_slab start count c
    then Some (vdat data (((at3 c 0 - at3 start 0) * at3 count 1 + (at3 c 1 - at3 start 1)) * at3 count 2
                          + (at3 c 2 - at3 start 2)))
    else fv_dat f c)).

(** getNumberOfXCells etc. of a volume with [gh] ghost cells on each side. *)
Definition inner_size (v : vol R) (gh : cell) : cell :=
  (vnx v - 2 * at3 gh 0, vny v - 2 * at3 gh 1, vnz v - 2 * at3 gh 2).

(** The buffer [data]: NetCDFWriter.cpp lines 97-103, NetCDFMPIWriter.cpp lines
    184-191, HDF5Writer.cpp lines 173-178. *)
Definition inner_data (v : vol R) (gh : cell) : res (vol R) :=
  let n := inner_size v gh in
  vol_copy_internal v (at3 gh 0) (at3 gh 1) (at3 gh 2)
    (mkvol (at3 n 0 * at3 n 1 * at3 n 2) 1 1 (fun _ => 0%R)).

(** NetCDFWriter::createDimensions, makeDataset and writeMemory, NetCDFWriter.cpp
    lines 73-107 and 123-132: the variable of one snapshot. *)
Definition netcdf_write (v : vol R) (gh : cell) : res fvar :=
  data <- inner_data v gh;;
  put_slab (new_fvar (inner_size v gh)) (0, 0, 0) (inner_size v gh) data.

(** The two calls of std::swap on a position and an extent, NetCDFMPIWriter.cpp
    lines 198-212. *)
Definition file_axes (dim : Z) (v : cell) : cell :=
  let v := if dim =? 2 then (at3 v 1, at3 v 0, at3 v 2) else v in
  if dim =? 3 then (at3 v 2, at3 v 1, at3 v 0) else v.

(** NetCDFMPIWriter::writeMemory, NetCDFMPIWriter.cpp lines 179-218, on one
    process, whose block of the grid is [lg]. *)
Definition netcdf_mpi_memory (f : fvar) (v : vol R) (gh : cell) (lg : grid) : res fvar :=
  data <- inner_data v gh;;
  let dim := active_dimension (gr_cells lg) in
  put_slab f (file_axes dim (gr_start lg)) (file_axes dim (gr_cells lg)) data.

(** The variable after all processes have written their block: createDimensions
    with the global size (NetCDFMPIWriter.cpp lines 105-112), then the writes of
    the processes in the order [ranks] in which they reach the file. *)
Definition netcdf_mpi_write (global : cell) (vols : Z -> vol R) (gh : cell) (blocks : Z -> grid)
    (ranks : list Z) : res fvar :=
  fold_res (fun r f => netcdf_mpi_memory f (vols r) gh (blocks r)) ranks (new_fvar global).

(** HDF5Writer::writeMemoryToDataset, HDF5Writer.cpp lines 137-187, on a dataset. *)
Definition hdf5_memory (f : fvar) (v : vol R) (gh : cell) : res fvar :=
  data <- inner_data v gh;;
  put_slab f (0, 0, 0) (inner_size v gh) data.

(** HDF5Writer::writeMemory, HDF5Writer.cpp lines 190-199. *)
Definition hdf5_write (v : vol R) (gh : cell) : res fvar :=
  hdf5_memory (new_fvar (inner_size v gh)) v gh.

(** HDF5MPIWriter: the dataset of one sample, written by the processes that run
    the sample.  The dataset is created with the size of the volume of the process
    (HDF5MPIWriter.cpp lines 114-117 and 162-169; all processes pass the same size),
    and each process writes it with the inherited writeMemoryToDataset. *)
Definition hdf5_mpi_write (vols : Z -> vol R) (gh : cell) (ranks : list Z) : res fvar :=
  match ranks with
  | [] => Ok (new_fvar (0, 0, 0))
  | r0 :: _ => fold_res (fun r f => hdf5_memory f (vols r) gh) ranks (new_fvar (inner_size (vols r0) gh))
  end.
