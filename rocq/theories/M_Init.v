(** Initial data: parameters, the Python program, and the first state. *)
From Coq Require Import ZArith List Bool Reals String.
From Verif Require Import M_Base M_Foreach M_Sim M_Mpi.
Import ListNotations.
Open Scope Z_scope.

(** * Parameters

    init::Parameters, /repo/alsfvm/src/init/Parameters.cpp: a std::map from names to
    arrays.  The order of the keys plays no role below, so a list. *)
Definition parameters : Type := list (string * list R).
Fixpoint find_parameter (ps : parameters) (name : string) : option (list R) :=
  match ps with
  | [] => None
  | (n, v) :: ps' => if String.eqb n name then Some v else find_parameter ps' name
  end.
(** addParameter, lines 21-28. *)
Definition add_parameter (ps : parameters) (name : string) (value : list R) : res parameters :=
  match find_parameter ps name with Some _ => Throw | None => Ok (ps ++ [(name, value)]) end.
(** setOrAddParameter, lines 52-55. *)
Definition set_or_add_parameter (ps : parameters) (name : string) (value : list R) : parameters :=
  match find_parameter ps name with
  | Some _ => map (fun p => if String.eqb (fst p) name then (name, value) else p) ps
  | None => ps ++ [(name, value)]
  end.

(** One entry of fvm.initialData.parameters: name, length, and the values given.  With
    length 1 exactly one value is read. *)
Record parameter_entry : Type := mkentry { e_name : string; e_length : Z; e_values : list R }.

(** SimulatorSetup::readParameters, /repo/alsfvm/src/config/SimulatorSetup.cpp lines
    431-479: the parameters of the equation and those of the initial data.  A
    missing value throws (property_tree). *)
Definition entry_values (e : parameter_entry) : res (list R) :=
  if e_length e =? 1 then match e_values e with v :: _ => Ok [v] | [] => Throw end
  else match e_values e with
       | [v] => if e_length e <? 0 then Throw else Ok (repeat v (Z.to_nat (e_length e)))
       | vs => Ok vs
       end.
Definition read_parameters (eqp : list (string * R)) (entries : list parameter_entry) : res parameters :=
  ps <- fold_res (fun (p : string * R) ps => add_parameter ps (fst p) [snd p]) eqp [];;
  fold_res (fun e ps => vs <- entry_values e;; add_parameter ps (e_name e) vs) entries ps.

(** PythonInitialData::setParameters, /repo/alsfvm/src/init/PythonInitialData.cpp
    lines 283-290. *)
Definition set_parameters (ps new : parameters) : parameters :=
  fold_left (fun acc p => set_or_add_parameter acc (fst p) (snd p)) new ps.

(** * Python

    Values: a number (a parameter of size one, line 131), an array, or some object of
    a library. *)
Inductive pyval : Type := PNum (x : R) | PArray (l : list R) | PObject (name : string).
Definition namespace : Type := string -> option pyval.
Definition bind_name (ns : namespace) (name : string) (v : pyval) : namespace :=
  fun n => if String.eqb n name then Some v else ns n.
Definition to_python (v : list R) : pyval := match v with [x] => PNum x | _ => PArray v end.

(** Lines 126-144: the parameters become attributes of the main module. *)
Definition bind_parameters (ps : parameters) (ns : namespace) : namespace :=
  fold_left (fun ns p => bind_name ns (fst p) (to_python (snd p))) ps ns.
(** "from ... import *" binds every exported name. *)
Definition import_star (exports : namespace) (ns : namespace) : namespace :=
  fun n => match exports n with Some v => Some v | None => ns n end.

(** The main module when the program runs.  The parameters are bound while the text of
    the program is put together, lines 126-144; the text begins with the imports of
    math and numpy (lines 111-113) and is executed in line 224, after that.  A failing
    import of numpy is ignored; then [numpy] exports nothing.  The definitions in the
    program itself are not modelled, they are part of the meaning of the body below. *)
Definition main_module (math numpy : namespace) (ps : parameters) (ns : namespace) : namespace :=
  import_star numpy (import_star math (bind_parameters ps ns)).

(** The meaning of a snippet: what its body does to the local variables, given the
    global ones; [None] for an exception. *)
Definition snippet : Type := namespace -> namespace -> option namespace.

Definition no_names : namespace := fun _ => None.
(** The function initial_data, lines 116-122 and 146-157, with the variables [names] of
    the equation, and the extraction of doubles, lines 257-268. *)
Definition locals (names : list string) (x y z : R) (i j k : Z) : namespace :=
  fold_left (fun ns n => bind_name ns n (PNum 0)) names
    (bind_name (bind_name (bind_name (bind_name (bind_name (bind_name no_names
      "x" (PNum x)) "y" (PNum y)) "z" (PNum z)) "i" (PNum (IZR i))) "j" (PNum (IZR j))) "k" (PNum (IZR k)))%string.
Definition extract_double (v : option pyval) : option R := match v with Some (PNum x) => Some x | _ => None end.
Fixpoint all_some {A} (l : list (option A)) : option (list A) :=
  match l with
  | [] => Some []
  | Some a :: l' => match all_some l' with Some r => Some (a :: r) | None => None end
  | None :: _ => None
  end.
Definition initial_data (names : list string) (body : snippet) (globals : namespace) (x y z : R) (i j k : Z) : option (list R) :=
  match body globals (locals names x y z i j k) with
  | Some ls => all_some (map (fun n => extract_double (ls n)) names)
  | None => None
  end.

(** The meaning of a program that defines init_global: numbers of cells, lower and upper
    corner of the grid, and the arrays before and after. *)
Definition global_program : Type := namespace -> cell -> (Z -> R) -> (Z -> R) -> (cell -> list R) -> option (cell -> list R).

Inductive program : Type := Snippet (body : snippet) | Global (body : global_program).

(** * The first state

    A write through the pointer of a memory area. *)
Definition poke {A} (u : vol A) (p : Z) (a : A) : res (vol A) :=
  if (0 <=? p) && (p <? vnx u * vny u * vnz u)
  then Ok (mkvol (vnx u) (vny u) (vnz u) (fun q => if q =? p then a else vdat u q)) else UB.
Definition peek {A} (u : vol A) (p : Z) : res A :=
  if (0 <=? p) && (p <? vnx u * vny u * vnz u) then Ok (vdat u p) else UB.

(** setInitialData for snippets, lines 248-271, with [prim] zero at first (line 90).
    The midpoint of the cell is the entry of getCellMidpoints (Grid.cpp lines 148-171)
    with the index given by for_each_midpoint; that this is the one of the cell is
    C01_midpoints_match_cells. *)
Definition fill_snippet (names : list string) (body : snippet) (globals : namespace) (gr : grid) (g : cell)
    (prim : vol (list R)) : res (vol (list R)) :=
  let '(gx, gy, gz) := g in
  for_each_midpoint (vnx prim) (vny prim) (vnz prim) gx gy gz (at3 (gr_cells gr) 0) (at3 (gr_cells gr) 1)
    (fun index _ c u => let '(i, j, k) := c in
       match initial_data names body globals (midpoint gr c 0) (midpoint gr c 1) (midpoint gr c 2) i j k with
       | Some vals => poke u index vals
       | None => Throw
       end) prim.

(** The arrays of lines 161-192: element (i, j, k) is at this offset of the memory area;
    the call, lines 228-242.  What the call leaves in the arrays is stored element by
    element here. *)
Definition array_offset (g : cell) (prim : vol (list R)) (i j k : Z) : Z :=
  let '(gx, gy, gz) := g in
  gx + gy * vnx prim + gz * vny prim * vnx prim + i + j * vnx prim + k * (vnx prim * vny prim).
Definition fill_global (body : global_program) (globals : namespace) (gr : grid) (g : cell)
    (prim : vol (list R)) : res (vol (list R)) :=
  let n := gr_cells gr in
  match body globals n (gr_origin gr) (gr_top gr) (fun c => let '(i, j, k) := c in vdat prim (array_offset g prim i j k)) with
  | Some arr => for3 0 (at3 n 2) 0 (at3 n 1) 0 (at3 n 0) (fun i j k u => poke u (array_offset g prim i j k) (arr (i, j, k))) prim
  | None => Throw
  end.

(** computeFromPrimitive, /repo/alsfvm/src/equation/CPUCellComputer.cpp lines 127-140,
    and transform_volume: all cells. *)
Definition compute_from_primitive {V} (conserved : list R -> V) (prim : vol (list R)) (cons : vol V) : res (vol V) :=
  for_each_cell_index (vnx prim) (vny prim) (vnz prim) (0, 0, 0) (0, 0, 0)
    (fun index u => vals <- peek prim index;; poke u index (conserved vals)) cons.

(** setInitialData.  [cons] is the conserved volume, with [g] ghost cells; the
    primitive one has the same extents (Simulator.cpp lines 153-154). *)
Definition set_initial_data {V} (names : list string) (prog : program) (globals : namespace) (gr : grid) (g : cell)
    (conserved : list R -> V) (cons : vol V) : res (vol V) :=
  let zero := mkvol (vnx cons) (vny cons) (vnz cons) (fun _ => map (fun _ => 0%R) names) in
  prim <- (match prog with
           | Snippet body => fill_snippet names body globals gr g zero
           | Global body => fill_global body globals gr g zero
           end);;
  compute_from_primitive conserved prim cons.

(** Simulator::setInitialValue, /repo/alsfvm/src/simulator/Simulator.cpp lines 117-162. On
    the GPU the volume is filled on the host and copied, which changes nothing. *)
Definition set_initial_value {V} (names : list string) (prog : program) (globals : namespace) (gr : grid) (g : cell)
    (conserved : list R -> V) (bc : vol V -> res (vol V)) (cons : vol V) : res (vol V) :=
  u <- set_initial_data names prog globals gr g conserved cons;; bc u.

(** The samples of one process, one after the other, /repo/alsuq/src/run/Runner.cpp
    lines 42-53 and FiniteVolumeSimulatorCreator.cpp lines 50-63.  The interpreter and
    its main module live as long as the process (PythonInterpreter.cpp lines 5-8), so
    each sample begins with what the previous one has left.  The modules seen by the
    programs of the samples. *)
Fixpoint sample_modules (math numpy : namespace) (configured : parameters) (samples : list parameters) (ns : namespace)
  : list namespace :=
  match samples with
  | [] => []
  | s :: ss => let m := main_module math numpy (set_parameters configured s) ns in
               m :: sample_modules math numpy configured ss m
  end.
