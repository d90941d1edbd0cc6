(** The class that belongs to each name: the documentation of the input format. *)
From Coq Require Import ZArith List Reals String.
From Verif Require Import M_Base M_Vec M_Flux M_Combined M_Scalar M_Euler M_Recon.
Import ListNotations.
Open Scope string_scope.

Definition scalar_classes : list (string * string * scalar_eq * flux_name) :=
  [("burgers", "roe", Burgers, Two BurgersRoe);
   ("burgers", "godunov", Burgers, Two Godunov);
   ("burgers", "godunov4", Burgers, Combined4 Godunov);
   ("burgers", "godunov6", Burgers, Combined6 Godunov);
   ("burgers", "tecno1", Burgers, Two EntropyConservative);
   ("burgers", "tecno4", Burgers, Combined4 EntropyConservative);
   ("burgers", "tecno6", Burgers, Combined6 EntropyConservative);
   ("burgers", "rusanov", Burgers, Two Rusanov);
   ("burgers", "central", Burgers, Two Central);
   ("buckleyleverett", "godunov", BuckleyLeverett, Two Godunov);
   ("buckleyleverett", "rusanov", BuckleyLeverett, Two Rusanov);
   ("buckleyleverett", "central", BuckleyLeverett, Two Central);
   ("cubic", "roe", Cubic, Two CubicRoe);
   ("cubic", "rusanov", Cubic, Two Rusanov);
   ("cubic", "central", Cubic, Two Central);
   ("linear", "roe", Linear, Two LinearRoe);
   ("linear", "upwind", Linear, Two Upwind);
   ("linear", "rusanov", Linear, Two Rusanov);
   ("linear", "central", Linear, Two Central)].
Definition euler_classes : list (string * euler_name) :=
  [("hll", HLL); ("hll3", HLL3); ("central", ECentral); ("tecno1", Tecno1); ("tecno4", Tecno4); ("tecno6", Tecno6)].
Definition euler_equations : list (string * nat) := [("euler1", 1%nat); ("euler2", 2%nat); ("euler3", 3%nat)].

(** The indicator variable of ENO and WENO is the first one. *)
Definition recon_classes {V : cvars} (L : lifting V) : list (string * recon V) :=
  [("none", no_reconstruction);
   ("eno2", eno_recon 2 (comp 0)); ("eno3", eno_recon 3 (comp 0)); ("eno4", eno_recon 4 (comp 0));
   ("weno2", weno2_recon (comp 0)); ("weno3", weno_recon 3 (comp 0));
   ("mc", limiter_recon L mc_slope); ("mm", limiter_recon L mm_slope)].
