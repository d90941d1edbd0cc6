(** The Euler equations in n = 1, 2, 3 space dimensions and their numerical
    fluxes, in exact arithmetic.  Files under
    /repo/alsfvm/include/alsfvm/equation/euler and numflux/euler. *)
From Coq Require Import Reals List ZArith Bool.
From Verif Require Import M_Base M_Vec M_Flux M_Combined.
Import ListNotations.
Open Scope R_scope.

(** vec1, vec2, vec3 (/repo/alsutils/include/alsutils/vec1.hpp, vec2.hpp,
    vec3.hpp): n reals with component-wise + and scaling. *)
Definition unit_cvars : cvars.
Proof.
  refine (mkcvars unit tt (fun _ _ => tt) (fun _ _ => tt) (fun _ _ => 0) _ _ _ _); try (intros; ring).
  now intros [] [] _.
Defined.
Fixpoint vec_cvars (n : nat) : cvars :=
  match n with O => unit_cvars | S n => pair_cvars scalar_cvars (vec_cvars n) end.
Definition rvec (n : nat) : Type := cv (vec_cvars n).

(** dot: vec1.hpp 92, vec2.hpp 101, vec3.hpp 102. *)
Fixpoint vdot (n : nat) : rvec n -> rvec n -> R :=
  match n return rvec n -> rvec n -> R with
  | O => fun _ _ => 0
  | S n => fun a b => fst a * fst b + vdot n (snd a) (snd b)
  end.
(** operator[]; an index outside the vector is undefined in C++, here 0; the
    theorems only use directions below n. *)
Fixpoint vnth (n d : nat) : rvec n -> R :=
  match n return rvec n -> R with
  | O => fun _ => 0
  | S n => fun a => match d with O => fst a | S d => vnth n d (snd a) end
  end.
(** a[d] = x *)
Fixpoint vset (n d : nat) (x : R) : rvec n -> rvec n :=
  match n return rvec n -> rvec n with
  | O => fun a => a
  | S n => fun a => match d with O => (x, snd a) | S d => (fst a, vset n d x (snd a)) end
  end.

Section Euler.
Variable n : nat.
Variable gamma : R.

(** ConservedVariables.hpp lines 29-136: (rho, m, E). *)
Definition euler_cvars : cvars := pair_cvars scalar_cvars (pair_cvars (vec_cvars n) scalar_cvars).
Definition cons : Type := cv euler_cvars.
Definition mkcons (rho : R) (m : rvec n) (E : R) : cons := (rho, (m, E)).
Definition rho_ (u : cons) : R := fst u.
Definition mom (u : cons) : rvec n := fst (snd u).
Definition en (u : cons) : R := snd (snd u).
(** PrimitiveVariables.hpp, ExtraVariables.hpp: (rho, u, p); the extra
    variables are u and p. *)
Record prim : Type := mkprim { p_rho : R; p_u : rvec n; p_p : R }.

Notation div a b := (vscal (/ b) a) (only parsing).

(** computeExtra, Euler.hpp lines 204-211. *)
Definition extra_u (u : cons) : rvec n := div (mom u) (rho_ u).
Definition extra_p (u : cons) : R :=
  (gamma - 1) * (en u - 1 / 2 * vdot n (mom u) (mom u) / rho_ u).
(** computePrimitiveVariables, lines 290-297. *)
Definition to_prim (u : cons) : prim :=
  mkprim (rho_ u) (div (mom u) (rho_ u))
    ((gamma - 1) * (en u - 1 / 2 * vdot n (mom u) (mom u) / rho_ u)).
(** computeConserved, lines 236-245. *)
Definition to_cons (w : prim) : cons :=
  mkcons (p_rho w) (vscal (p_rho w) (p_u w))
    (p_p w / (gamma - 1) + 1 / 2 * p_rho w * vdot n (p_u w) (p_u w)).
(** computePointFlux, lines 172-181. *)
Definition euler_flux (d : nat) (u : cons) : cons :=
  let fm := vscal (vnth n d (extra_u u)) (mom u) in
  mkcons (vnth n d (mom u)) (vset n d (vnth n d fm + extra_p u) fm)
         ((en u + extra_p u) * vnth n d (extra_u u)).
(** computeWaveSpeed, lines 251-258. *)
Definition sound (u : cons) : R := sqrt (gamma * extra_p u / rho_ u).
Definition euler_speed (d : nat) (u : cons) : R := Rabs (vnth n d (extra_u u)) + sound u.

(** Central.hpp lines 39-56. *)
Definition euler_central (d : Z) (l r : euler_cvars) : euler_cvars * R :=
  let d := Z.to_nat d in
  (vscal (1 / 2) (vadd (euler_flux d l) (euler_flux d r)), Rmax (euler_speed d l) (euler_speed d r)).

(** HLL::computeHLLSpeeds, HLL.hpp lines 89-115. *)
Definition roe_u (l r : cons) : rvec n :=
  div (vadd (vscal (sqrt (rho_ l)) (extra_u l)) (vscal (sqrt (rho_ r)) (extra_u r))) (sqrt (rho_ l) + sqrt (rho_ r)).
Definition roe_p (l r : cons) : R :=
  (extra_p l * sqrt (rho_ l) + extra_p r * sqrt (rho_ r)) / (sqrt (rho_ l) + sqrt (rho_ r)).
Definition roe_cs (l r : cons) : R := sqrt (gamma * roe_p l r / ((rho_ l + rho_ r) / 2)).
Definition hll_left (d : nat) (l r : cons) : R :=
  Rmin (vnth n d (extra_u l) - sqrt (gamma * extra_p l / rho_ l)) (vnth n d (roe_u l r) - roe_cs l r).
Definition hll_right (d : nat) (l r : cons) : R :=
  Rmax (vnth n d (extra_u r) + sqrt (gamma * extra_p r / rho_ r)) (vnth n d (roe_u l r) + roe_cs l r).
(** HLL::computeFlux, HLL.hpp lines 51-78. *)
Definition hll (d : Z) (l r : euler_cvars) : euler_cvars * R :=
  let d := Z.to_nat d in
  let sl := hll_left d l r in
  let sr := hll_right d l r in
  ((if Req_EM_T sl 0 then vzero
    else if Rgt_dec sl 0 then euler_flux d l
    else if Rlt_dec sr 0 then euler_flux d r
    else div (vadd (vadd (vscal sr (euler_flux d l)) (vscal (- sl) (euler_flux d r)))
                   (vscal (sr * sl) (vadd r (vscal (-1) l)))) (sr - sl)),
   Rmax (Rabs sl) (Rabs sr)).

(** HLL3::computeHLLSpeeds, HLL3.hpp lines 119-148. *)
Definition hll3_left (d : nat) (l r : cons) : R :=
  let correct := 1 / 2 * Rmax 0 (vnth n d (extra_u l) - vnth n d (extra_u r)) in
  Rmin (vnth n d (extra_u l) + correct - sqrt (gamma * extra_p l / rho_ l)) (vnth n d (roe_u l r) - roe_cs l r).
Definition hll3_right (d : nat) (l r : cons) : R :=
  let correct := 1 / 2 * Rmax 0 (vnth n d (extra_u l) - vnth n d (extra_u r)) in
  Rmax (vnth n d (extra_u r) - correct + sqrt (gamma * extra_p r / rho_ r)) (vnth n d (roe_u l r) + roe_cs l r).
(** The middle state next to side [a] with speed [s], HLL3.hpp lines 89-94 and
    97-102. *)
Definition hll3_middle (d : nat) (a : cons) (s sm : R) (us : rvec n) : cons :=
  let ud := vnth n d (extra_u a) - s in
  let rho := rho_ a * ud / (sm - s) in
  let p := extra_p a + rho_ a * (vnth n d (extra_u a) - sm) * ud in
  mkcons rho (vscal rho us) ((ud * en a + extra_p a * vnth n d (extra_u a) - p * sm) / (sm - s)).
(** HLL3::computeFlux, HLL3.hpp lines 52-107. *)
Definition hll3 (d : Z) (l r : euler_cvars) : euler_cvars * R :=
  let d := Z.to_nat d in
  let sl := hll3_left d l r in
  let sr := hll3_right d l r in
  let fl := euler_flux d l in
  let fr := euler_flux d r in
  let udl := vnth n d (extra_u l) - sl in
  let udr := vnth n d (extra_u r) - sr in
  let aa := udr * rho_ r - udl * rho_ l in
  let sm := (vnth n d (mom r) * udr - vnth n d (mom l) * udl + extra_p r - extra_p l) / aa in
  let us := vset n d sm (div (vadd (vadd (vadd (mom fr) (vscal (-1) (mom fl))) (vscal (- sr) (mom r)))
                                   (vscal sl (mom l))) aa) in
  ((if Req_EM_T sl 0 then vzero
    else if Rgt_dec sl 0 then fl
    else if Rlt_dec sr 0 then fr
    else if Rge_dec sm 0
    then vadd fl (vscal sl (vadd (hll3_middle d l sl sm us) (vscal (-1) l)))
    else vadd fr (vscal sr (vadd (hll3_middle d r sr sm us) (vscal (-1) r)))),
   Rmax (Rabs sl) (Rabs sr)).

(** computeTecnoVariables, Euler.hpp lines 311-320. *)
Definition z_first (u : cons) : R := sqrt (rho_ u / p_p (to_prim u)).
Definition z_vel (u : cons) : rvec n := vscal (sqrt (rho_ u / p_p (to_prim u))) (p_u (to_prim u)).
Definition z_last (u : cons) : R := sqrt (rho_ u * p_p (to_prim u)).

(** computeEntropyVariables, Euler.hpp lines 338-348, as a state vector
    (first, momentum part, last). *)
Definition entropy_s (u : cons) : R := ln (p_p (to_prim u)) - gamma * ln (rho_ u).
Definition euler_entropy_vars (u : cons) : cons :=
  mkcons ((gamma - entropy_s u) / (gamma - 1)
            - rho_ u * vdot n (p_u (to_prim u)) (p_u (to_prim u)) / (2 * p_p (to_prim u)))
         (div (mom u) (p_p (to_prim u))) (- rho_ u / p_p (to_prim u)).
(** computeEntropyPotential, lines 358-361. *)
Definition euler_entropy_pot (d : nat) (u : cons) : R := vnth n d (mom u).
End Euler.
Arguments mkcons {n}.
Arguments rho_ {n}.
Arguments mom {n}.
Arguments en {n}.
Arguments mkprim {n}.
Arguments p_rho {n}.
Arguments p_u {n}.
Arguments p_p {n}.
Arguments extra_u {n}.
Arguments extra_p {n}.
Arguments sound {n}.

(** numflux/euler/tecno_utils.hpp lines 22-47. *)
Definition bar (l r : R) : R := (l + r) / 2.
Definition logmean (l r : R) : R :=
  if Req_EM_T (r - l) 0 then 0
  else if Req_EM_T (ln r - ln l) 0 then 0
  else (r - l) / (ln r - ln l).
Definition div_logmean (l r F : R) : R :=
  if Req_EM_T (logmean l r) 0 then 0 else F / logmean l r.

(** Tecno1::computeFlux, numflux/euler/Tecno1.hpp: lines 136-166 (n = 1), 94-133
    (n = 2), 52-90 (n = 3), with the components F[0], F[1], ... spelled out.
    `left == right` compares all components.  For n = 3 the flux leaves F[3] = 0
    in the directions 0 and 1 and does not set F in direction 2; F is then the
    default-constructed zero (numflux_util.hpp line 86).  Other n: not offered,
    zero. *)
Section Tecno.
Variable gamma : R.
Definition tecno_energy (z0l z0r F0 s : R) : R :=
  1 / (2 * bar z0l z0r) * ((gamma + 1) / (gamma - 1) * div_logmean z0l z0r F0 + s).

Definition tecno_form1 (d : nat) (l r : cons 1) : cons 1 :=
  let b0 := bar (z_first 1 gamma l) (z_first 1 gamma r) in
  let b1 := bar (fst (z_vel 1 gamma l)) (fst (z_vel 1 gamma r)) in
  let bl := bar (z_last 1 gamma l) (z_last 1 gamma r) in
  let F0 := b1 * logmean (z_last 1 gamma l) (z_last 1 gamma r) in
  let F1 := bl / b0 + b1 / b0 * F0 in
  mkcons (n := 1) F0 (F1, tt) (tecno_energy (z_first 1 gamma l) (z_first 1 gamma r) F0 (b1 * F1)).

Definition tecno_form2 (d : nat) (l r : cons 2) : cons 2 :=
  let b0 := bar (z_first 2 gamma l) (z_first 2 gamma r) in
  let b1 := bar (fst (z_vel 2 gamma l)) (fst (z_vel 2 gamma r)) in
  let b2 := bar (fst (snd (z_vel 2 gamma l))) (fst (snd (z_vel 2 gamma r))) in
  let bl := bar (z_last 2 gamma l) (z_last 2 gamma r) in
  let lm := logmean (z_last 2 gamma l) (z_last 2 gamma r) in
  match d with
  | O => let F0 := b1 * lm in
         let F1 := bl / b0 + b1 / b0 * F0 in
         let F2 := b2 / b0 * F0 in
         mkcons (n := 2) F0 (F1, (F2, tt)) (tecno_energy (z_first 2 gamma l) (z_first 2 gamma r) F0 (b1 * F1 + b2 * F2))
  | _ => let F0 := b2 * lm in
         let F1 := b1 / b0 * F0 in
         let F2 := bl / b0 + b2 / b0 * F0 in
         mkcons (n := 2) F0 (F1, (F2, tt)) (tecno_energy (z_first 2 gamma l) (z_first 2 gamma r) F0 (b1 * F1 + b2 * F2))
  end.

Definition tecno_form3 (d : nat) (l r : cons 3) : cons 3 :=
  let b0 := bar (z_first 3 gamma l) (z_first 3 gamma r) in
  let b1 := bar (fst (z_vel 3 gamma l)) (fst (z_vel 3 gamma r)) in
  let b2 := bar (fst (snd (z_vel 3 gamma l))) (fst (snd (z_vel 3 gamma r))) in
  let bl := bar (z_last 3 gamma l) (z_last 3 gamma r) in
  let lm := logmean (z_last 3 gamma l) (z_last 3 gamma r) in
  match d with
  | O => let F0 := b1 * lm in
         let F1 := bl / b0 + b1 / b0 * F0 in
         let F2 := b2 / b0 * F0 in
         mkcons (n := 3) F0 (F1, (F2, (0, tt))) (tecno_energy (z_first 3 gamma l) (z_first 3 gamma r) F0 (b1 * F1 + b2 * F2))
  | S O => let F0 := b2 * lm in
         let F1 := b1 / b0 * F0 in
         let F2 := bl / b0 + b2 / b0 * F0 in
         mkcons (n := 3) F0 (F1, (F2, (0, tt))) (tecno_energy (z_first 3 gamma l) (z_first 3 gamma r) F0 (b1 * F1 + b2 * F2))
  | _ => mkcons (n := 3) 0 (0, (0, (0, tt))) 0
  end.

Definition tecno_form (n d : nat) : cons n -> cons n -> cons n :=
  match n return cons n -> cons n -> cons n with
  | 1%nat => tecno_form1 d
  | 2%nat => tecno_form2 d
  | 3%nat => tecno_form3 d
  | _ => fun l _ => l
  end.

(** left == right. *)
Fixpoint vec_eqb (n : nat) : rvec n -> rvec n -> bool :=
  match n return rvec n -> rvec n -> bool with
  | O => fun _ _ => true
  | S n => fun a b => (if Req_EM_T (fst a) (fst b) then true else false) && vec_eqb n (snd a) (snd b)
  end.
Definition cons_eqb (n : nat) (l r : cons n) : bool :=
  (if Req_EM_T (rho_ l) (rho_ r) then true else false) && vec_eqb n (mom l) (mom r)
  && (if Req_EM_T (en l) (en r) then true else false).

Definition tecno1 (n : nat) (d : Z) (l r : euler_cvars n) : euler_cvars n * R :=
  let d := Z.to_nat d in
  ((if cons_eqb n l r then euler_flux n gamma d l else tecno_form n d l r),
   Rmax (Rabs (hll3_left n gamma d l r)) (Rabs (hll3_right n gamma d l r))).
End Tecno.

(** The fluxes offered for Euler<1>, Euler<2>, Euler<3>,
    numerical_flux_list.hpp lines 42-73. *)
Inductive euler_name : Type := HLL | HLL3 | ECentral | Tecno1 | Tecno4 | Tecno6.
Definition euler_numflux (n : nat) (gamma : R) (k : euler_name) : numflux (euler_cvars n) :=
  match k with
  | HLL => Flux2 (hll n gamma)
  | HLL3 => Flux2 (hll3 n gamma)
  | ECentral => Flux2 (euler_central n gamma)
  | Tecno1 => Flux2 (tecno1 gamma n)
  | Tecno4 => combined4 (tecno1 gamma n)
  | Tecno6 => combined6 (tecno1 gamma n)
  end.
