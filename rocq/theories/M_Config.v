(** From the names in the configuration to the scheme (CPU). *)
From Coq Require Import ZArith List Bool Reals String Ascii.
From Verif Require Import M_Base M_Vec M_Flux M_Combined M_Scalar M_Euler M_Recon.
Import ListNotations.
Open Scope string_scope.

(** * Names *)

(** boost::to_lower_copy in the C locale. *)
Definition lower_char (c : ascii) : ascii :=
  let n := nat_of_ascii c in
  if (65 <=? n)%nat && (n <=? 90)%nat then ascii_of_nat (n + 32) else c.
Fixpoint to_lower (s : string) : string :=
  match s with EmptyString => EmptyString | String c s => String (lower_char c) (to_lower s) end.

(** boost::trim in the C locale: isspace is true of blank, \t, \n, \v, \f, \r. *)
Definition is_space (c : ascii) : bool :=
  let n := nat_of_ascii c in (n =? 32)%nat || (9 <=? n)%nat && (n <=? 13)%nat.
Fixpoint trim_left (s : string) : string :=
  match s with String c s' => if is_space c then trim_left s' else s | EmptyString => s end.
Fixpoint trim_right (s : string) : string :=
  match s with
  | EmptyString => EmptyString
  | String c s => match trim_right s with
                  | EmptyString => if is_space c then EmptyString else String c EmptyString
                  | s' => String c s'
                  end
  end.
Definition trim (s : string) : string := trim_right (trim_left s).

(** * Equations *)

(** EquationList, /repo/alsfvm/include/alsfvm/equation/equation_list.hpp lines 39-45,
    and the names: getName of EquationInformation.  A scalar equation or Euler<n>. *)
Inductive equation : Type := Scalar (e : scalar_eq) | Euler (n : nat).
Definition equations : list (string * equation) :=
  [("euler1", Euler 1); ("euler2", Euler 2); ("euler3", Euler 3); ("burgers", Scalar Burgers);
   ("buckleyleverett", Scalar BuckleyLeverett); ("cubic", Scalar Cubic); ("linear", Scalar Linear)].

(** boost::fusion::for_each with a functor that acts when the name matches: the
    last match remains (`numericalFlux.reset`). *)
Definition last_match {A} (name : string) (l : list (string * A)) : option A :=
  fold_left (fun acc p => if String.eqb (fst p) name then Some (snd p) else acc) l None.

(** * Fluxes: numerical_flux_list.hpp lines 42-113 with the static members `name` in
    /repo/alsfvm/src/numflux *)
Definition euler_fluxes : list (string * euler_name) :=
  [("hll", HLL); ("hll3", HLL3); ("central", ECentral); ("tecno1", Tecno1);
   ("tecno4", Tecno4); ("tecno6", Tecno6)].
Definition scalar_fluxes (e : scalar_eq) : list (string * flux_name) :=
  match e with
  | Burgers => [("central", Two Central); ("rusanov", Two Rusanov); ("godunov", Two Godunov);
                ("roe", Two BurgersRoe); ("tecno1", Two EntropyConservative);
                ("tecno4", Combined4 EntropyConservative); ("godunov4", Combined4 Godunov);
                ("tecno6", Combined6 EntropyConservative); ("godunov6", Combined6 Godunov)]
  | BuckleyLeverett => [("central", Two Central); ("godunov", Two Godunov); ("rusanov", Two Rusanov)]
  | Cubic => [("central", Two Central); ("roe", Two CubicRoe); ("rusanov", Two Rusanov)]
  | Linear => [("central", Two Central); ("rusanov", Two Rusanov); ("roe", Two LinearRoe);
               ("upwind", Two Upwind)]
  end.

(** * The scheme *)
Definition record_type (e : equation) : cvars :=
  match e with Scalar _ => scalar_cvars | Euler n => euler_cvars n end.
(** The cell record, the flux and the reconstruction that NumericalFluxCPU holds. *)
Record scheme : Type := mkscheme {
  sc_vars : cvars;
  sc_flux : numflux sc_vars;
  sc_recon : recon sc_vars
}.

(** EquationFunctor and FluxFunctor, /repo/alsfvm/src/numflux/NumericalFluxFactory.cpp
    lines 60-99 and 131-139, platform cpu: the name of the flux is compared in lower
    case. *)
Definition find_flux (e : equation) (gamma : R) : string -> option (numflux (record_type e)) :=
  match e return string -> option (numflux (record_type e)) with
  | Scalar e => fun name => option_map (the_flux e) (last_match (to_lower name) (scalar_fluxes e))
  | Euler n => fun name => option_map (euler_numflux n gamma) (last_match (to_lower name) euler_fluxes)
  end.

(** ReconstructionFactory::createReconstruction,
    /repo/alsfvm/src/reconstruction/ReconstructionFactory.cpp lines 49-165, platform
    cpu.  The indicator variable is variable 0 (NumericalFluxCPU.cpp lines 196-213).
    For the scalar equations the classes for Burgers are used; they only look at the
    one variable. *)
Definition find_recon (e : equation) (gamma : R) (name : string) : option (recon (record_type e)) :=
  let L := match e return lifting (record_type e) with
           | Scalar _ => scalar_lifting | Euler n => euler_lifting n end in
  if String.eqb name "none" then Some no_reconstruction
  else if String.eqb name "eno2" then Some (eno_recon 2 (comp 0))
  else if String.eqb name "eno3" then Some (eno_recon 3 (comp 0))
  else if String.eqb name "eno4" then Some (eno_recon 4 (comp 0))
  else if String.eqb name "weno2" then Some (weno2_recon (comp 0))
  else if String.eqb name "weno3" then Some (weno_recon 3 (comp 0))
  else if String.eqb name "wenof2" then
    match e return option (recon (record_type e)) with
    | Scalar _ => None | Euler n => Some (wenof2_recon n gamma) end
  else if String.eqb name "mc" then Some (limiter_recon L mc_slope)
  else if String.eqb name "mm" then Some (limiter_recon L mm_slope)
  else None.

(** NumericalFluxFactory::createNumericalFlux, lines 173-200, on the strings of
    readEquation, readFlux and readReconstruciton (SimulatorSetup.cpp lines 293-303,
    641-644; only the last is trimmed).  Every missing entry throws.  [gamma] is the
    parameter of the Euler equations. *)
Definition create_scheme (gamma : R) (equation flux reconstruction : string) : res scheme :=
  match last_match equation equations with
  | None => Throw
  | Some e =>
      match find_recon e gamma (trim reconstruction), find_flux e gamma flux with
      | Some rc, Some fx => Ok (mkscheme (record_type e) fx rc)
      | _, _ => Throw
      end
  end.

(** getStencil, numflux_util.hpp lines 43-60. *)
Definition stencil {V : cvars} (fx : numflux V) : list Z :=
  match fx with Flux2 _ => [0; 1]%Z | FluxN st _ => st end.
(** NumericalFluxCPU::getNumberOfGhostCells, NumericalFluxCPU.cpp lines 226-231: the
    ghost cells of all volumes. *)
Definition scheme_ghosts (s : scheme) : Z :=
  Z.max (Z.of_nat (List.length (stencil (sc_flux s))) - 1) (rec_ghosts (sc_recon s)).

(** * Work arrays *)

(** createVolumes, NumericalFluxCPU.cpp lines 233-252: left and right are set to zero;
    the temporary volume is new memory, which holds 42
    (/repo/alsfvm/src/memory/HostMemory.cpp line 37; [fill] is the record of 42s).
    [out] is the volume of the caller. *)
Definition constant {V : cvars} (v : V) (u : vol V) : vol V :=
  mkvol (vnx u) (vny u) (vnz u) (fun _ => v).
Definition fresh_work {V : cvars} (fill : V) (u out : vol V) : fstate V :=
  mkfstate (constant vzero u) (constant vzero u) (constant fill u) out (fun _ => 0%R).
