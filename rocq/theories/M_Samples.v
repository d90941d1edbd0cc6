(** Model of the generation of the random parameters of the samples.
    Code: /repo/alsuq/src/generator/STLMersenne.cpp,
    /repo/alsuq/src/distribution/{Uniform,Uniform1D,FunctionDistribution}.cpp,
    /repo/alsuq/src/distribution/DistributionFactory.cpp,
    /repo/alsuq/src/samples/SampleGenerator.cpp,
    /repo/alsuq/src/run/Runner.cpp, /repo/alsuq/src/config/Setup.cpp. *)
From Coq Require Import ZArith List Bool Lia Reals String.
From Verif Require Import M_Base.
Import ListNotations.
Open Scope Z_scope.

(** The one pair (engine, counter) shared by all generators of a process,
    STLMersenne.cpp lines 25-29.  The engine is the position in the fixed
    sequence of mt19937_64 outputs (the engine is default seeded). *)
Record gstate : Type := mkg {
  gpos : Z;      (* outputs consumed from generator.first *)
  gcount : Z     (* generator.second *)
}.

(** getGeneratorInstance at program start, STLMersenne.cpp line 26. *)
Definition g0 : gstate := mkg 0 0.

(** Checks that a C++ [long] holds the value; signed overflow is undefined. *)
Definition long_ok (z : Z) : bool := (- 2 ^ 63 <=? z) && (z <? 2 ^ 63).

(** discard, STLMersenne.cpp lines 55-62 and 71-79: both the engine and the
    counter move on. *)
Definition discard (k : Z) (g : gstate) : gstate := mkg (gpos g + k) (gcount g + k).

(** STLMersenne::generate, STLMersenne.cpp lines 38-85.  The result is the
    position of the engine output that is used: line 84 turns one 64 bit output
    into one real in [0,1) (std::uniform_real_distribution, one engine call). *)
Definition mersenne_generate (dim component sample : Z) (g : gstate) : res (Z * gstate) :=
  if dim <=? component then Throw
  else
    g1 <- (if Z.quot (gcount g) dim <? sample then
             if long_ok (sample * dim) then Ok (discard (sample * dim - gcount g) g) else UB
           else Ok g);;
    let g2 := if Z.rem (gcount g1) dim <? component
              then discard (component - Z.rem (gcount g1) dim) g1 else g1 in
    Ok (gpos g2, mkg (gpos g2 + 1) (gcount g2 + 1)).

(** How the value of a parameter component is made, DistributionFactory.cpp
    lines 28-64: drawn from the generator and scaled, or computed from the
    component and the sample index without using the generator (uniform1d,
    dll, qmc). *)
Inductive distribution : Type :=
| DUniform (lower upper : R)
| DFunction (f : Z -> Z -> res R).

(** Uniform::scale, Uniform.cpp lines 32-34. *)
Definition uniform_scale (lower upper x : R) : R := (x * (upper - lower) + lower)%R.

(** Uniform1D::Uniform1D and generate, Uniform1D.cpp lines 22-38. *)
Definition uniform1d_delta (n : Z) (a b : R) : R := ((b - a) / IZR n)%R.
Definition uniform1d (n : Z) (a b : R) : distribution :=
  DFunction (fun component sample =>
    if 0 <? component then Throw
    else Ok (a + uniform1d_delta n a b * (IZR sample + / 2))%R).

(** A value together with the element of the random sequence it came from. *)
Record drawn : Type := mkdrawn {
  dval : R;
  dpos : option Z
}.

(** distribution->generateon component i, SampleGenerator.cpp
    line 51; [stream] is the sequence of uniform numbers of the engine. *)
Definition dist_generate (stream : Z -> R) (d : distribution) (dim component sample : Z)
    (g : gstate) : res (drawn * gstate) :=
  match d with
  | DUniform lo hi =>
      pg <- mersenne_generate dim component sample g;;
      Ok (mkdrawn (uniform_scale lo hi (stream (fst pg))) (Some (fst pg)), snd pg)
  | DFunction f =>
      v <- f component sample;; Ok (mkdrawn v None, g)
  end.

(** A parameter of the configuration: length and distribution
    (Setup.cpp lines 162-188). *)
Record parameter : Type := mkparam {
  plen : Z;
  pdist : distribution
}.

(** SampleGenerator::generate, SampleGenerator.cpp lines 29-56. *)
Definition generate_parameter (stream : Z -> R) (p : parameter) (sample : Z) (g : gstate)
  : res (list drawn * gstate) :=
  for_ 0 (plen p) (fun i lg =>
    dg <- dist_generate stream (pdist p) (plen p) i sample (snd lg);;
    Ok (fst lg ++ [fst dg], snd dg)) ([], g).

(** One sample, Runner.cpp lines 46-51: all parameters in the order of the map
    (sorted by name). *)
Definition generate_sample (stream : Z -> R) (ps : list parameter) (sample : Z) (g : gstate)
  : res (list (list drawn) * gstate) :=
  fold_res (fun p lg =>
    dg <- generate_parameter stream p sample (snd lg);;
    Ok (fst lg ++ [fst dg], snd dg)) ps ([], g).

(** All samples of one process, Runner.cpp lines 42-51: for each sample its
    index and the values of all parameters.  The simulation in between does not
    touch the generator. *)
Definition run_samples (stream : Z -> R) (ps : list parameter) (samples : list Z)
    (g : gstate) : res (list (Z * list (list drawn)) * gstate) :=
  fold_res (fun s lg =>
    dg <- generate_sample stream ps s (snd lg);;
    Ok (fst lg ++ [(s, fst dg)], snd dg)) samples ([], g).

(** * Configured parameters of a distribution *)

(** A property tree node as the association of its keys with numbers;
    [put] replaces an existing entry (boost::property_tree::put, called in
    Parameters::addDoubleParameter,
    /repo/alsutils/src/parameters/Parameters.cpp lines 72-74). *)
Definition tree : Type := string -> option R.
Definition put (k : string) (v : R) (t : tree) : tree :=
  fun k' => if String.eqb k' k then Some v else t k'.

(** Parameters::getDouble: throws when the key is missing (ptree::get). *)
Definition get_double (t : tree) (k : string) : res R :=
  match t k with Some v => Ok v | None => Throw end.

(** Setup::makeSampleGenerator, Setup.cpp lines 167-176, in order. *)
Definition setup_parameters (node : tree) : tree :=
  put "sd" 1%R (put "mean" 0%R (put "b" 1%R (put "a" 0%R
    (put "upper" 1%R (put "lower" 0%R node))))).

(** DistributionFactory::createDistribution for "uniform" and "uniform1d",
    DistributionFactory.cpp lines 40-46, with the parameters of the node. *)
Definition create_uniform (t : tree) : res distribution :=
  a <- get_double t "lower";; b <- get_double t "upper";; Ok (DUniform a b).
Definition create_uniform1d (n : Z) (t : tree) : res distribution :=
  a <- get_double t "a";; b <- get_double t "b";; Ok (uniform1d n a b).
