(** The CFL number and the integrator of a configuration.  The scheme is that of
    M_Config. *)
From Coq Require Import Reals List String.
From Verif Require Import M_Base M_Vec M_Flux M_Scalar M_Sim M_Config.
Import ListNotations.
Open Scope string_scope.

(** SimulatorSetup::readCFLNumber, /repo/alsfvm/src/config/SimulatorSetup.cpp lines
    305-319.  [parse] is boost::lexical_cast<real>, which throws bad_lexical_cast on
    text that is not entirely a number (None) and ignores no blanks; it is a
    parameter.  The entry itself is not trimmed, the reconstruction is (lines
    298-303).  The literals are read as the decimal numbers they are written as. *)
Definition read_cfl (parse : string -> option R) (cfl reconstruction : string) : res R :=
  if String.eqb cfl "auto" then
    Ok (if String.eqb (trim reconstruction) "none" then (9 / 10)%R else (475 / 1000)%R)
  else match parse cfl with Some x => Ok x | None => Throw end.

(** SimulatorSetup::readIntegrator, lines 321-336. *)
Definition read_integrator (integrator reconstruction : string) : string :=
  if String.eqb integrator "auto" then
    if String.eqb (trim reconstruction) "none" then "forwardeuler" else "rungekutta2"
  else integrator.

(** IntegratorFactory::createIntegrator,
    /repo/alsfvm/src/integrator/IntegratorFactory.cpp lines 31-44. *)
Definition create_integrator (name : string) : res integrator :=
  if String.eqb name "forwardeuler" then Ok ForwardEuler
  else if String.eqb name "rungekutta2" then Ok RungeKutta2
  else if String.eqb name "rungekutta3" then Ok RungeKutta3
  else if String.eqb name "rungekutta4" then Ok RungeKutta4
  else Throw.

(** What readSetupFromFile passes on to the simulator.  Simplified: the order in
    which the entries are read only decides which exception is thrown. *)
Record choice : Type := mkchoice { ch_scheme : scheme; ch_cfl : R; ch_integrator : integrator }.
Definition read_choice (parse : string -> option R) (gamma : R)
    (equation flux reconstruction cfl integrator : string) : res choice :=
  bind (create_scheme gamma equation flux reconstruction) (fun s =>
  bind (read_cfl parse cfl reconstruction) (fun c =>
  bind (create_integrator (read_integrator integrator reconstruction)) (fun i =>
  Ok (mkchoice s c i)))).
