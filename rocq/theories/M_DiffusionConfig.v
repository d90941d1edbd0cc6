(** The diffusion operator of a configuration and the ghost layers of its volumes. *)
From Coq Require Import ZArith List String.
From Verif Require Import M_Base M_Vec M_Flux M_Scalar M_Diffusion M_Config.
Open Scope string_scope.

(** The classes of tecno reconstructions: NoReconstruction and ENOCPU<order>. *)
Inductive tecno_recon : Type := TNone | TEno (order : nat).
(** ReconstructionFactory::createReconstruction,
    /repo/alsfvm/src/reconstruction/tecno/ReconstructionFactory.cpp lines 37-93,
    platform cpu. *)
Definition create_tecno_recon (name : string) : res tecno_recon :=
  if String.eqb name "none" then Ok TNone
  else if String.eqb name "eno2" then Ok (TEno 2)
  else if String.eqb name "eno3" then Ok (TEno 3)
  else if String.eqb name "eno4" then Ok (TEno 4)
  else Throw.

(** The operator: NoDiffusion or TecnoDiffusionCPU<Equation, Matrix>. *)
Inductive diffusion : Type := NoDiffusion | Tecno (e : equation) (m : dmatrix) (r : tecno_recon).

(** The two names tested in every branch, DiffusionFactory.cpp lines 53-63. *)
Definition named_matrix (name : string) : res dmatrix :=
  if String.eqb name "tecnoroe" then Ok Roe
  else if String.eqb name "tecnorusanov" then Ok RusanovM
  else Throw.

(** DiffusionFactory::createDiffusionOperator,
    /repo/alsfvm/src/diffusion/DiffusionFactory.cpp lines 42-107 and 173, platform
    cpu.  The reconstruction is created first, whatever the name. *)
Definition create_diffusion (equation name reconstruction : string) : res diffusion :=
  r <- create_tecno_recon reconstruction;;
  if String.eqb name "none" then Ok NoDiffusion
  else if String.eqb equation "burgers" then m <- named_matrix name;; Ok (Tecno (Scalar Burgers) m r)
  else if String.eqb equation "euler1" then m <- named_matrix name;; Ok (Tecno (Euler 1) m r)
  else if String.eqb equation "euler2" then m <- named_matrix name;; Ok (Tecno (Euler 2) m r)
  else if String.eqb equation "euler3" then m <- named_matrix name;; Ok (Tecno (Euler 3) m r)
  else Throw.

(** SimulatorSetup::createDiffusion, /repo/alsfvm/src/config/SimulatorSetup.cpp lines
    521-537.  The node fvm.diffusion, if present, with its children name and
    reconstruction, if present; ptree::get throws on a missing child. *)
Definition read_diffusion (node : option (option string * option string)) (equation : string) : res diffusion :=
  match node with
  | None => create_diffusion equation "none" "none"
  | Some (Some name, Some reconstruction) => create_diffusion equation (trim name) (trim reconstruction)
  | Some _ => Throw
  end.

(** getNumberOfGhostCells: NoDiffusion.cpp lines 28-30, TecnoDiffusionCPU.cpp lines
    171-174, tecno/NoReconstruction.hpp lines 40-42, tecno/ENOCPU.cpp lines 181-183. *)
Definition diffusion_ghosts (d : diffusion) : Z :=
  match d with NoDiffusion => 0 | Tecno _ _ TNone => 1 | Tecno _ _ (TEno k) => Z.of_nat k end.
(** ConservedSystem::getNumberOfGhostCells,
    /repo/alsfvm/src/simulator/ConservedSystem.cpp lines 111-114: the ghost layers of
    the volumes of the simulator. *)
Definition system_ghosts (s : scheme) (d : diffusion) : Z := Z.max (scheme_ghosts s) (diffusion_ghosts d).
