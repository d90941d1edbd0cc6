(** The scalar equations and their numerical fluxes, in exact arithmetic. *)
From Coq Require Import Reals List ZArith.
From Verif Require Import M_Base M_Vec M_Flux M_Combined.
Import ListNotations.
Open Scope R_scope.

Inductive scalar_eq : Type := Burgers | Cubic | Linear | BuckleyLeverett.

(** computePointFlux; the same in every direction.
    /repo/alsfvm/include/alsfvm/equation/burgers/Burgers.hpp lines 158-164,
    cubic/Cubic.hpp 158-164, linear/Linear.hpp 158-164,
    buckleyleverett/BuckleyLeverett.hpp 159-165. *)
Definition point_flux (e : scalar_eq) (u : R) : R :=
  match e with
  | Burgers => u * u / 2
  | Cubic => u * u * u / 3
  | Linear => u
  | BuckleyLeverett => u * u / (u * u + (1 - u) * (1 - u))
  end.

(** computeEigenValues: Burgers.hpp 298-301, Cubic.hpp 298-301, Linear.hpp
    298-301, BuckleyLeverett.hpp 300-306. *)
Definition eigenvalue (e : scalar_eq) (u : R) : R :=
  match e with
  | Burgers => u
  | Cubic => u * u
  | Linear => 1
  | BuckleyLeverett =>
      (2 * u * (u * u + (1 - u) * (1 - u)) - u * u * (2 * u - 2 * (1 - u)))
      / ((u * u + (1 - u) * (1 - u)) * (u * u + (1 - u) * (1 - u)))
  end.

(** computeWaveSpeed: Burgers.hpp 202-209, Cubic.hpp 202-209, Linear.hpp
    202-209, BuckleyLeverett.hpp 203-212. *)
Definition wave_speed (e : scalar_eq) (u : R) : R :=
  match e with
  | Burgers => Rabs u
  | Cubic => Rabs (u * u)
  | Linear => 1
  | BuckleyLeverett =>
      Rabs (2 * u * (u * u + (1 - u) * (1 - u)) - u * u * (2 * u - 2 * (1 - u)))
      / ((u * u + (1 - u) * (1 - u)) * (u * u + (1 - u) * (1 - u)))
  end.

(** computeEntropyVariables and computeEntropyPotential with
    entropyLowerBound = 0 and entropyUpperBound = 2 (USE_LOG_ENTROPY = 1); the
    text is the same for all four: Burgers.hpp, Cubic.hpp, Linear.hpp lines 28,
    78-85, 247-275, BuckleyLeverett.hpp lines 250-278. *)
Definition entropy_var (u : R) : R := 1 / (2 - u) - 1 / (u - 0).
Definition entropy_pot (u : R) : R :=
  entropy_var u * (1 / 2) * u * u - (- 2 * u - 2 * ln (2 - u) - 0 * ln (u - 0)).
(** computeEntropyVariablesMultipliedByEigenVectorMatrix: Burgers.hpp, Cubic.hpp,
    Linear.hpp lines 277-286, BuckleyLeverett.hpp lines 280-289. *)
Definition entropy_var_eigen (u : R) : R := 2 * u / (u * (u - 2)).

(** The fluxes of two states.  All of them are in
    /repo/alsfvm/include/alsfvm/numflux. *)
Inductive flux2 : Type :=
| Central        (* Central.hpp 37-56 *)
| Rusanov        (* Rusanov.hpp 37-59 *)
| Godunov        (* burgers/Godunov.hpp 40-60, buckleyleverett/Godunov.hpp 40-60 *)
| BurgersRoe     (* burgers/Roe.hpp 37-61 *)
| CubicRoe       (* cubic/Roe.hpp 37-71 *)
| LinearRoe      (* linear/Roe.hpp 36-54 *)
| Upwind         (* linear/Upwind.hpp 21-38 *)
| EntropyConservative. (* ScalarEntropyConservativeFlux.hpp 38-59 *)

Definition flux_value (e : scalar_eq) (n : flux2) (l r : R) : R :=
  let f := point_flux e in
  match n with
  | Central => 1 / 2 * (f l + f r)
  | Rusanov =>
      let a := Rmax (Rabs (eigenvalue e l)) (Rabs (eigenvalue e r)) in
      1 / 2 * (f l + f r) - 1 / 2 * a * (r - l)
  | Godunov => Rmax (f (Rmax l 0)) (f (Rmin r 0))
  | BurgersRoe => if Rge_dec l (- r) then f (Rmax l 0) else f (Rmin r 0)
  | CubicRoe =>
      let a := if Req_EM_T l r then l * l else (f l - f r) / (l - r) in
      if Rge_dec a 0 then f l else f r
  | LinearRoe => f (Rmax l 0)
  | Upwind => f l
  | EntropyConservative =>
      if Req_EM_T l r then f l
      else (entropy_pot r - entropy_pot l) / (entropy_var r - entropy_var l)
  end.
(** All of them return the larger of the two wave speeds. *)
Definition flux_speed (e : scalar_eq) (l r : R) : R := Rmax (wave_speed e l) (wave_speed e r).

(** The computeFlux of the two-state fluxes as one function. *)
Definition scalar_flux (e : scalar_eq) (n : flux2) (d : Z) (l r : scalar_cvars) : scalar_cvars * R :=
  (flux_value e n l r, flux_speed e l r).

Inductive flux_name : Type := Two (n : flux2) | Combined4 (n : flux2) | Combined6 (n : flux2).

Definition the_flux (e : scalar_eq) (n : flux_name) : numflux scalar_cvars :=
  match n with
  | Two n => Flux2 (scalar_flux e n)
  | Combined4 n => combined4 (scalar_flux e n)
  | Combined6 n => combined6 (scalar_flux e n)
  end.

(** The fluxes offered for each equation, numerical_flux_list.hpp lines 75-113. *)
Definition offered (e : scalar_eq) : list flux_name :=
  match e with
  | Burgers => [Two Central; Two Rusanov; Two Godunov; Two BurgersRoe; Two EntropyConservative;
                Combined4 EntropyConservative; Combined4 Godunov;
                Combined6 EntropyConservative; Combined6 Godunov]
  | BuckleyLeverett => [Two Central; Two Godunov; Two Rusanov]
  | Cubic => [Two Central; Two CubicRoe; Two Rusanov]
  | Linear => [Two Central; Two Rusanov; Two LinearRoe; Two Upwind]
  end.
