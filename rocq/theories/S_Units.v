(** A simulation in other units of length and time. *)
From Coq Require Import ZArith Reals List.
From Verif Require Import M_Base M_Vec M_Flux M_Sim M_Time M_Scalar M_Euler.
Import ListNotations.
Open Scope R_scope.

(** Fluxes and wave speeds [k] times as large. *)
Definition faster {V : cvars} (k : R) (fx : numflux V) : numflux V :=
  match fx with
  | Flux2 f => Flux2 (fun d l r => (vscal k (fst (f d l r)), k * snd (f d l r)))
  | FluxN st f => FluxN st (fun d us => (vscal k (fst (f d us)), k * snd (f d us)))
  end.
(** The same flow with velocities [k] times as large: the pressure and the energy are [k]^2
    times as large. *)
Definition quick {n : nat} (k : R) (u : euler_cvars n) : euler_cvars n :=
  mkcons (rho_ u) (vscal k (mom u)) (k * k * en u).

(** [k] times the quantity of a scalar equation; by how much waves become faster; the fluxes
    without the entropy variables, which belong to the interval from 0 to 2. *)
Definition bigger (k : R) (u : scalar_cvars) : scalar_cvars := k * u.
Definition gain (k : R) (e : scalar_eq) : R := match e with Burgers => k | Cubic => k * k | _ => 1 end.
Definition unbounded (e : scalar_eq) (n : flux2) : Prop :=
  match e, n with
  | Burgers, (Central | Rusanov | Godunov | BurgersRoe) => True
  | Cubic, (Central | Rusanov | CubicRoe) => True
  | _, _ => False
  end.
Definition plain_flux (n : flux_name) : flux2 := match n with Two n => n | Combined4 n => n | Combined6 n => n end.

(** An observer of a simulation whose times are [theta] and whose lengths are [lambda]
    times those of another one. *)
Definition scaled_writer (lambda theta : R) (w : tw) : tw :=
  match w with
  | TFixed T s k => TFixed (theta * T) (theta * s) k
  | TStat T wi k => TStat (theta * T) wi k
  | TCoarse T n skips gdx dx k j first => TCoarse (theta * T) n skips (lambda * gdx) (lambda * dx) k j first
  end.
Definition no_coarse (w : tw) : Prop := match w with TCoarse _ _ _ _ _ _ _ _ => False | _ => True end.

(** [f] after and before the change of units. *)
Definition scaled_fun (k : R) (f f' : R -> R) : Prop := forall x, f' (k * x) = k * f x.
(** Cells [lambda] times as long, waves [kappa] times as fast, the same CFL number. *)
Definition scaled_params (lambda kappa : R) (p p' : params) : Prop :=
  (forall d, p_len p' d = lambda * p_len p d) /\ p_cfl p' = p_cfl p /\
  Forall2 (scaled_fun kappa) (p_wadj p) (p_wadj p').

(** A simulation with its observers: the boundary conditions on the initial data, the
    first call of the observers, [n] steps. *)
Definition observed_run {V : cvars} (it : integrator) (b : bckind) (dims g : Z) (fx : numflux V) (rc : recon V) (p : params)
    (obeys : vol V -> bool) (vols : list (vol V)) (sc : vol V * vol V * vol V) (n : nat) (ws : list tw) :
  res (sim V (vol V * vol V * vol V) * list logged) :=
  let bc := M_Boundary.apply_boundary (bc_apply b) dims g (fun _ => false) in
  bind (start bc vols sc) (fun st => full_run it (flux_system dims g fx rc Ok) bc p obeys n st ws).

From Verif Require Import S_Sim.
(** The second run takes as many steps as the first, to [theta] times its time, with related
    solutions, and its observers have saved at [theta] times the times of the first; or both
    throw. *)
Definition agree_in_units {V W : cvars} {Sc Sd : Type} (theta : R) (P : field V -> field W -> Prop)
    (r : res (sim V Sc * list logged)) (r' : res (sim W Sd * list logged)) : Prop :=
  (exists st ws st' ws', r = Ok (st, ws) /\ r' = Ok (st', ws') /\
     s_time st' = theta * s_time st /\ s_steps st' = s_steps st /\ P (solution st) (solution st') /\
     map snd ws' = map (fun wl => map (Rmult theta) (snd wl)) ws) \/
  (r = Throw /\ r' = Throw).
