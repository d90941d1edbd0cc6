(** What a diffusion node asks for. *)
From Coq Require Import ZArith List String.
From Verif Require Import M_Scalar M_Diffusion M_Config M_DiffusionConfig S_Config.
Import ListNotations.
Open Scope string_scope.

Definition diffusive_equations : list (string * equation) :=
  [("burgers", Scalar Burgers); ("euler1", Euler 1); ("euler2", Euler 2); ("euler3", Euler 3)].
Definition matrices : list (string * dmatrix) := [("tecnoroe", Roe); ("tecnorusanov", RusanovM)].
Definition tecno_recons : list (string * tecno_recon) :=
  [("none", TNone); ("eno2", TEno 2); ("eno3", TEno 3); ("eno4", TEno 4)].

(** The configuration's node, its equation, and the operator they name. *)
Inductive selects : option (option string * option string) -> string -> diffusion -> Prop :=
| sel_absent eq : selects None eq NoDiffusion
| sel_none n r eq o : trim n = "none" -> In (trim r, o) tecno_recons ->
    selects (Some (Some n, Some r)) eq NoDiffusion
| sel_tecno n r eq e m o : In (trim n, m) matrices -> In (trim r, o) tecno_recons ->
    In (eq, e) diffusive_equations -> selects (Some (Some n, Some r)) eq (Tecno e m o).

(** Ghost layers due to the flux and the reconstruction of the scheme. *)
Definition layers (flux reconstruction : string) : Z :=
  Z.max (flux_points flux - 1) (recon_reach reconstruction).
