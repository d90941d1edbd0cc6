(** Vector components read by the fluxes of the Euler equations, with the access
    checked, and the flux object made for a grid. *)
From Coq Require Import ZArith Reals List Bool String.
From Verif Require Import M_Base M_Boundary M_Vec M_Flux M_Combined M_Euler M_Scalar M_Recon M_Config.
Import ListNotations.
Open Scope R_scope.

(** operator[] of vec1, vec2, vec3 indexes the address of the struct
    (/repo/alsutils/include/alsutils/vec1.hpp lines 76-87, vec2.hpp and vec3.hpp
    likewise): an index outside the vector is undefined behaviour. *)
Definition vread (n d : nat) (v : rvec n) : res R :=
  if (d <? n)%nat then Ok (vnth n d v) else UB.
Definition vwrite (n d : nat) (x : R) (v : rvec n) : res (rvec n) :=
  if (d <? n)%nat then Ok (vset n d x v) else UB.

(** A numerical flux whose evaluation may be undefined. *)
Inductive cflux (V : cvars) : Type :=
| CFlux2 (f : Z -> V -> V -> res (V * R))
| CFluxN (stencil : list Z) (f : Z -> list V -> res (V * R)).
Arguments CFlux2 {V}.
Arguments CFluxN {V}.

Section Euler.
Variable n : nat.
Variable gamma : R.
Notation div a b := (vscal (/ b) a) (only parsing).

(** computePointFlux, /repo/alsfvm/include/alsfvm/equation/euler/Euler.hpp lines
    172-181. *)
Definition c_flux (d : nat) (u : cons n) : res (cons n) :=
  md <- vread n d (mom u);;
  ud <- vread n d (extra_u u);;
  let fm := vscal ud (mom u) in
  fd <- vread n d fm;;
  fm' <- vwrite n d (fd + extra_p gamma u) fm;;
  Ok (mkcons md fm' ((en u + extra_p gamma u) * ud)).

(** computeWaveSpeed, Euler.hpp lines 251-258. *)
Definition c_speed (d : nat) (u : cons n) : res R :=
  ud <- vread n d (extra_u u);;
  Ok (Rabs ud + sound gamma u).

(** Central.hpp lines 39-56. *)
Definition c_central (d : Z) (l r : euler_cvars n) : res (euler_cvars n * R) :=
  let d := Z.to_nat d in
  fl <- c_flux d l;;
  fr <- c_flux d r;;
  sl <- c_speed d l;;
  sr <- c_speed d r;;
  Ok (vscal (1 / 2) (@vadd (euler_cvars n) fl fr), Rmax sl sr).

(** HLL::computeHLLSpeeds, HLL.hpp lines 89-115. *)
Definition c_hll_speeds (d : nat) (l r : cons n) : res (R * R) :=
  ul <- vread n d (extra_u l);;
  um <- vread n d (roe_u n l r);;
  ur <- vread n d (extra_u r);;
  Ok (Rmin (ul - sqrt (gamma * extra_p gamma l / rho_ l)) (um - roe_cs n gamma l r),
      Rmax (ur + sqrt (gamma * extra_p gamma r / rho_ r)) (um + roe_cs n gamma l r)).

(** HLL::computeFlux, HLL.hpp lines 51-78. *)
Definition c_hll (d : Z) (l r : euler_cvars n) : res (euler_cvars n * R) :=
  let d := Z.to_nat d in
  s <- c_hll_speeds d l r;;
  let '(sl, sr) := s in
  F <- (if Req_EM_T sl 0 then Ok vzero
        else if Rgt_dec sl 0 then c_flux d l
        else if Rlt_dec sr 0 then c_flux d r
        else fl <- c_flux d l;;
             fr <- c_flux d r;;
             Ok (div (@vadd (euler_cvars n) (vadd (@vscal (euler_cvars n) sr fl) (@vscal (euler_cvars n) (- sl) fr))
                           (vscal (sr * sl) (vadd r (vscal (-1) l)))) (sr - sl)));;
  Ok (F, Rmax (Rabs sl) (Rabs sr)).

(** HLL3::computeHLLSpeeds, HLL3.hpp lines 119-148. *)
Definition c_hll3_speeds (d : nat) (l r : cons n) : res (R * R) :=
  ul <- vread n d (extra_u l);;
  ur <- vread n d (extra_u r);;
  um <- vread n d (roe_u n l r);;
  let correct := 1 / 2 * Rmax 0 (ul - ur) in
  Ok (Rmin (ul + correct - sqrt (gamma * extra_p gamma l / rho_ l)) (um - roe_cs n gamma l r),
      Rmax (ur - correct + sqrt (gamma * extra_p gamma r / rho_ r)) (um + roe_cs n gamma l r)).

(** HLL3.hpp lines 89-94 and 97-102. *)
Definition c_middle (d : nat) (a : cons n) (s sm : R) (us : rvec n) : res (cons n) :=
  ua <- vread n d (extra_u a);;
  let ud := ua - s in
  let rho := rho_ a * ud / (sm - s) in
  let p := extra_p gamma a + rho_ a * (ua - sm) * ud in
  Ok (mkcons rho (vscal rho us) ((ud * en a + extra_p gamma a * ua - p * sm) / (sm - s))).

(** HLL3::computeFlux, HLL3.hpp lines 52-107. *)
Definition c_hll3 (d : Z) (l r : euler_cvars n) : res (euler_cvars n * R) :=
  let d := Z.to_nat d in
  s <- c_hll3_speeds d l r;;
  let '(sl, sr) := s in
  fl <- c_flux d l;;
  fr <- c_flux d r;;
  ul <- vread n d (extra_u l);;
  ur <- vread n d (extra_u r);;
  let udl := ul - sl in
  let udr := ur - sr in
  let aa := udr * rho_ r - udl * rho_ l in
  mr <- vread n d (mom r);;
  ml <- vread n d (mom l);;
  let sm := (mr * udr - ml * udl + extra_p gamma r - extra_p gamma l) / aa in
  us <- vwrite n d sm (div (vadd (vadd (vadd (mom fr) (vscal (-1) (mom fl))) (vscal (- sr) (mom r)))
                                 (vscal sl (mom l))) aa);;
  F <- (if Req_EM_T sl 0 then Ok vzero
        else if Rgt_dec sl 0 then Ok fl
        else if Rlt_dec sr 0 then Ok fr
        else if Rge_dec sm 0
        then m <- c_middle d l sl sm us;;
             Ok (@vadd (euler_cvars n) fl (vscal sl (@vadd (euler_cvars n) m (vscal (-1) l))))
        else m <- c_middle d r sr sm us;;
             Ok (@vadd (euler_cvars n) fr (vscal sr (@vadd (euler_cvars n) m (vscal (-1) r)))));;
  Ok (F, Rmax (Rabs sl) (Rabs sr)).

(** Tecno1::computeFlux, Tecno1.hpp: the components of the form are spelled out and
    inside the vectors; the point flux and the speeds of HLL3 read the component of
    the direction (lines 62-63, 85-89, 105-106, 125-129, 147-148, 158-162). *)
Definition c_tecno1 (d : Z) (l r : euler_cvars n) : res (euler_cvars n * R) :=
  let d := Z.to_nat d in
  F <- (if cons_eqb n l r then c_flux d l else Ok (tecno_form gamma n d l r));;
  s <- c_hll3_speeds d l r;;
  Ok (F, Rmax (Rabs (fst s)) (Rabs (snd s))).
End Euler.

Section Combined.
Context {V : cvars}.
Variable f : Z -> V -> V -> res (V * R).
(** TecnoCombined4.hpp lines 40-71. *)
Definition c_combined4 : cflux V :=
  CFluxN [-1; 0; 1; 2]%Z (fun d us =>
    match us with
    | [um; u0; u1; u2] =>
        a <- f d u0 u1;;
        b <- f d um u1;;
        c <- f d u0 u2;;
        Ok (vadd (vscal (4 / 3) (fst a)) (vscal (-1) (vscal (1 / 6) (vadd (fst b) (fst c)))),
            Rmax (Rmax (Rmax 0 (snd a)) (snd b)) (snd c))
    | _ => Ok (vzero, 0)
    end).
(** TecnoCombined6.hpp lines 40-75. *)
Definition c_combined6 : cflux V :=
  CFluxN [-2; -1; 0; 1; 2; 3]%Z (fun d us =>
    match us with
    | [umm; um; u0; u1; u2; u3] =>
        a <- f d u0 u1;;
        b <- f d um u1;;
        c <- f d u0 u2;;
        p <- f d umm u1;;
        q <- f d um u2;;
        w <- f d u0 u3;;
        Ok (vadd (vadd (vscal (3 / 2) (fst a)) (vscal (-1) (vscal (3 / 10) (vadd (fst b) (fst c)))))
                 (vscal (1 / 30) (vadd (vadd (fst p) (fst q)) (fst w))),
            Rmax (Rmax (Rmax (Rmax (Rmax (Rmax 0 (snd a)) (snd b)) (snd c)) (snd p)) (snd q)) (snd w))
    | _ => Ok (vzero, 0)
    end).
End Combined.

(** The fluxes of Euler<n>, numerical_flux_list.hpp lines 42-73. *)
Definition c_euler (n : nat) (gamma : R) (k : euler_name) : cflux (euler_cvars n) :=
  match k with
  | HLL => CFlux2 (c_hll n gamma)
  | HLL3 => CFlux2 (c_hll3 n gamma)
  | ECentral => CFlux2 (c_central n gamma)
  | Tecno1 => CFlux2 (c_tecno1 n gamma)
  | Tecno4 => c_combined4 (c_tecno1 n gamma)
  | Tecno6 => c_combined6 (c_tecno1 n gamma)
  end.
(** A flux that never reads a component by the direction: the scalar equations. *)
Definition total_flux {V : cvars} (fx : numflux V) : cflux V :=
  match fx with
  | Flux2 f => CFlux2 (fun d l r => Ok (f d l r))
  | FluxN st f => CFluxN st (fun d us => Ok (f d us))
  end.
Definition c_find_flux (e : equation) (gamma : R) : string -> option (cflux (record_type e)) :=
  match e return string -> option (cflux (record_type e)) with
  | Scalar e => fun name =>
      option_map (fun k => total_flux (the_flux e k)) (last_match (to_lower name) (scalar_fluxes e))
  | Euler n => fun name => option_map (c_euler n gamma) (last_match (to_lower name) euler_fluxes)
  end.

(** * The flux object for a grid *)

(** Grid::getActiveDimension, /repo/alsfvm/src/grid/Grid.cpp lines 131-139. *)
Definition active_dimension (ny nz : Z) : Z :=
  if (nz >? 1)%Z then 3%Z else if (ny >? 1)%Z then 2%Z else 1%Z.

(** NumericalFluxCPU<Flux, Equation, dimension>. *)
Record flux_object : Type := mkobject {
  ob_vars : cvars;
  ob_dims : Z;
  ob_flux : cflux ob_vars;
  ob_recon : recon ob_vars
}.
(** NumericalFluxFactory::createNumericalFlux, /repo/alsfvm/src/numflux/NumericalFluxFactory.cpp
    lines 60-77 and 173-200, platform cpu: the grid decides the dimension, the
    equation is not consulted. *)
Definition create_flux (gamma : R) (nx ny nz : Z) (equation flux reconstruction : string) : res flux_object :=
  match last_match equation equations with
  | None => Throw
  | Some e =>
      match find_recon e gamma (trim reconstruction), c_find_flux e gamma flux with
      | Some rc, Some fx => Ok (mkobject (record_type e) (active_dimension ny nz) fx rc)
      | _, _ => Throw
      end
  end.

(** * The right hand side with a checked flux *)
Section System.
Context {V : cvars}.

(** computeFluxForStencil, numflux_util.hpp lines 62-142. *)
Definition c_flux_at (fx : cflux V) (d : Z) (left right : vol V) (x y z : Z) : res (V * R) :=
  match fx with
  | CFlux2 f =>
      r <- vload left (x + unit_ d 0) (y + unit_ d 1) (z + unit_ d 2);;
      l <- vload right x y z;;
      f d l r
  | CFluxN st f =>
      us <- map_res (fun s => vload left (x + unit_ d 0 * s) (y + unit_ d 1 * s)
                                    (z + unit_ d 2 * s)) st;;
      f d us
  end%Z.

Variable dims g : Z.
Variable fx : cflux V.
Variable rc : recon V.

(** computeNetFlux, NumericalFluxCPU.cpp lines 32-118, as M_Flux.net_flux. *)
Definition c_net_flux (d : Z) (left right out temp : vol V)
    (start fin : ivec) : res (vol V * vol V * R) :=
  (let ng := ghost dims g in
  tw <- for3 (ng 2 - unit_ d 2 + start 2) (vnz out - ng 2 + fin 2)
             (ng 1 - unit_ d 1 + start 1) (vny out - ng 1 + fin 1)
             (ng 0 - unit_ d 0 + start 0) (vnx out - ng 0 + fin 0)
    (fun x y z (tw : vol V * R) =>
       fs <- c_flux_at fx d left right x y z;;
       t' <- vstore (fst tw) x y z (vscal (-1)%R (fst fs));;
       Ok (t', Rmax (snd tw) (snd fs))) (temp, 0%R);;
  let t := fst tw in
  o <- for3 (ng 2 - unit_ d 2 + start 2) (vnz out - ng 2 + fin 2 - unit_ d 2)
            (ng 1 - unit_ d 1 + start 1) (vny out - ng 1 + fin 1 - unit_ d 1)
            (ng 0 - unit_ d 0 + start 0) (vnx out - ng 0 + fin 0 - unit_ d 0)
    (fun x y z o =>
       fmr <- vload t (x + unit_ d 0) (y + unit_ d 1) (z + unit_ d 2);;
       m <- vload t x y z;;
       old <- vload o (x + unit_ d 0) (y + unit_ d 1) (z + unit_ d 2);;
       vstore o (x + unit_ d 0) (y + unit_ d 1) (z + unit_ d 2)
              (vadd old (vadd fmr (vscal (-1)%R m)))) out;;
  Ok (o, t, snd tw))%Z.

(** computeFlux, NumericalFluxCPU.cpp lines 170-221, as M_Flux.compute_flux. *)
Definition c_compute_flux (u : vol V) (start fin : ivec) (s : fstate V) : res (fstate V) :=
  (out0 <- make_zero dims g start fin (f_out s);;
  for_ 0 dims (fun d s =>
    lr <- reconstruct dims rc d u (f_left s) (f_right s) start fin;;
    r <- c_net_flux d (fst lr) (snd lr) (f_out s) (f_temp s) start fin;;
    Ok (mkfstate (fst lr) (snd lr) (snd (fst r)) (fst (fst r))
                 (fun k => if k =? d then snd r else f_speed s k)))
    (mkfstate (f_left s) (f_right s) (f_temp s) out0 (f_speed s)))%Z.

(** ConservedSystem::operator(), /repo/alsfvm/src/simulator/ConservedSystem.cpp lines
    31-100, as M_Flux.system_flux. *)
Definition c_system_flux (exchange : vol V -> res (vol V)) (u : vol V) (s : fstate V)
  : res (vol V * fstate V) :=
  (let gc := ghost dims g in
  s1 <- c_compute_flux u gc (fun k => - gc k) (mkfstate (f_left s) (f_right s) (f_temp s) (f_out s) (f_speed s));;
  u' <- exchange u;;
  r <- for_ 0 dims (fun d (st : fstate V * (Z -> R)) =>
    let '(s, sides) := st in
    sb <- c_compute_flux u' (fun _ => 0)
            (fun k => if k =? d then - total (f_out s) d + 3 * gc d else 0)
            (mkfstate (f_left s) (f_right s) (f_temp s) (f_out s) (fun _ => 0%R));;
    let sides := speed_max sides (f_speed sb) in
    stp <- c_compute_flux u'
            (fun k => if k =? d then total (f_out s) d - 3 * gc d else 0) (fun _ => 0)
            (mkfstate (f_left sb) (f_right sb) (f_temp sb) (f_out sb) (fun _ => 0%R));;
    Ok (stp, speed_max sides (f_speed stp))) (s1, fun _ => 0%R);;
  Ok (u', mkfstate (f_left (fst r)) (f_right (fst r)) (f_temp (fst r)) (f_out (fst r))
                   (speed_max (f_speed s1) (snd r))))%Z.
End System.
