(** The reconstructions in exact arithmetic: minmod, MC, MM, ENO, WENO, WENOF2. *)
From Coq Require Import Reals List ZArith Bool.
From Verif Require Import M_Base M_Vec M_Flux M_Euler.
Import ListNotations.
Open Scope R_scope.

(** A function of three reals applied to every conserved variable: the loops
    `for (size_t var ...)` of MC.hpp lines 42-49, MM.hpp lines 40-47. *)
Record lifting (V : cvars) : Type := mklifting {
  lift3 : (R -> R -> R -> R) -> V -> V -> V -> V;
  comp_lift3 : forall f, f 0 0 0 = 0 -> forall i a b c,
    comp i (lift3 f a b c) = f (comp i a) (comp i b) (comp i c)
}.
Arguments lift3 {V}.

Definition scalar_lifting : lifting scalar_cvars.
Proof. now refine (mklifting scalar_cvars (fun f a b c => f a b c) _). Defined.
Definition unit_lifting : lifting unit_cvars.
Proof. refine (mklifting unit_cvars (fun _ _ _ _ => tt) _). intros f H i [] [] []. now symmetry. Defined.
Definition pair_lifting {U W : cvars} (lu : lifting U) (lw : lifting W) : lifting (pair_cvars U W).
Proof.
  refine (mklifting (pair_cvars U W)
    (fun f a b c => (lift3 lu f (fst a) (fst b) (fst c), lift3 lw f (snd a) (snd b) (snd c))) _).
  intros f H i a b c. cbn -[Nat.even Nat.div2]. destruct (Nat.even i); now apply comp_lift3.
Defined.
Fixpoint vec_lifting (n : nat) : lifting (vec_cvars n) :=
  match n return lifting (vec_cvars n) with
  | O => unit_lifting
  | S n => pair_lifting scalar_lifting (vec_lifting n)
  end.
Definition euler_lifting (n : nat) : lifting (euler_cvars n) :=
  pair_lifting scalar_lifting (pair_lifting (vec_lifting n) scalar_lifting).

(** sign, /repo/alsfvm/include/alsfvm/reconstruction/sign.hpp lines 19-27. *)
Definition sign (x : R) : R := if Rgt_dec x 0 then 1 else if Req_EM_T x 0 then 0 else -1.
(** minmod, /repo/alsfvm/include/alsfvm/reconstruction/minmod.hpp lines 22-36. *)
Definition minmod2 (a b : R) : R :=
  if Req_EM_T (sign a) (sign b) then sign a * Rmin (Rabs a) (Rabs b) else 0.
Definition minmod3 (a b c : R) : R :=
  if Req_EM_T (sign a) (sign b) then
    if Req_EM_T (sign b) (sign c) then sign a * Rmin (Rabs a) (Rmin (Rabs b) (Rabs c)) else 0
  else 0.

(** MC.hpp lines 28-55 and MM.hpp lines 27-53, for one variable: the slope, the
    left and the right value. *)
Definition mc_slope (l m r : R) : R := minmod3 (2 * (r - m)) ((r - l) / 2) (2 * (m - l)).
Definition mm_slope (l m r : R) : R := minmod2 (r - m) (m - l).
Definition face_left (slope : R -> R -> R -> R) (l m r : R) : R := m - slope l m r / 2.
Definition face_right (slope : R -> R -> R -> R) (l m r : R) : R := m + slope l m r / 2.

(** The reconstruction object: ReconstructionCPU with a limiter. *)
Definition limiter_recon {V : cvars} (L : lifting V) (slope : R -> R -> R -> R) : recon V :=
  mkrecon 2 false (fun us =>
    match us with
    | [l; m; r] => (lift3 L (face_left slope) l m r, lift3 L (face_right slope) l m r)
    | _ => (vzero, vzero)
    end).

(** ** ENO *)
Section Stencils.
Context {V : cvars}.
(** [u o] is the value at offset [o] from the cell, along the direction. *)
Variable u : Z -> V.

(** ENOCoefficients.cpp lines 21-49. *)
Definition eno_coef (k : nat) : list (list R) :=
  match k with
  | 1%nat => [[1]; [1]]
  | 2%nat => [[3 / 2; -1 / 2]; [1 / 2; 1 / 2]; [-1 / 2; 3 / 2]]
  | 3%nat => [[11 / 6; -7 / 6; 1 / 3]; [1 / 3; 5 / 6; -1 / 6]; [-1 / 6; 5 / 6; 1 / 3]; [1 / 3; -7 / 6; 11 / 6]]
  | 4%nat => [[25 / 12; -23 / 12; 13 / 12; -1 / 4]; [1 / 4; 13 / 12; -5 / 12; 1 / 12];
              [-1 / 12; 7 / 12; 7 / 12; -1 / 12]; [1 / 12; -5 / 12; 13 / 12; 1 / 4];
              [-1 / 4; 13 / 12; -23 / 12; 25 / 12]]
  | _ => []
  end.

(** sum_j coefficients[j] * u[start + j] (ENOCPU.cpp lines 163-174, WENOCPU.cpp
    lines 172-182). *)
Fixpoint lincomb (cs : list R) (start : Z) : V :=
  match cs with
  | [] => vzero
  | c :: cs => vadd (vscal c (u start)) (lincomb cs (start + 1)%Z)
  end.
(** leftValue and rightValue of the stencil that starts [shift] cells to the
    left: rows [shift] and [shift + 1] of the table (ENOCPU.cpp lines 158-174). *)
Definition stencil_left (k shift : nat) : V := lincomb (nth shift (eno_coef k) []) (- Z.of_nat shift).
Definition stencil_right (k shift : nat) : V := lincomb (nth (S shift) (eno_coef k) []) (- Z.of_nat shift).
End Stencils.

(** computeDividedDifferences, ENOCPU.cpp lines 205-267: the level-[l] undivided
    difference stored at offset [x]. *)
Fixpoint ddiff (l : nat) (v : Z -> R) (x : Z) : R :=
  match l with
  | O => v x
  | S l => ddiff l v (x + 1)%Z - ddiff l v x
  end.
(** The shift (lines 141-153): one comparison per level, always of the entries at
    x - 1 and at x. *)
Fixpoint eno_shift (levels : nat) (v : Z -> R) : nat :=
  match levels with
  | O => O
  | S l => (eno_shift l v
            + if Rlt_dec (Rabs (ddiff (S l) v (-1))) (Rabs (ddiff (S l) v 0)) then 1 else 0)%nat
  end.
(** ENOCPU<k>::performReconstruction for one cell; [ind] is the indicator
    variable (component 0, NumericalFluxCPU.cpp lines 196-213). *)
Definition eno {V : cvars} (k : nat) (ind : V -> R) (u : Z -> V) : V * V :=
  let s := eno_shift (k - 1) (fun o => ind (u o)) in
  (stencil_left u k s, stencil_right u k s).

(** ** WENO *)
(** WENOCoefficients.hpp line 21. *)
Definition weno_eps : R := / 10 ^ 8.
(** computeBeta, WENOCoefficients.hpp lines 37-68; [v 0] is the cell itself, so
    V[j] of the code is v (j - (k - 1)). *)
Definition weno_beta (k i : nat) (v : Z -> R) : R :=
  match k, i with
  | 2%nat, O => (v 1%Z - v 0%Z) ^ 2
  | 2%nat, 1%nat => (v 0%Z - v (-1)%Z) ^ 2
  | 3%nat, O => 13 / 12 * (v 0%Z - 2 * v 1%Z + v 2%Z) ^ 2 + 1 / 4 * (3 * v 0%Z - 4 * v 1%Z + v 2%Z) ^ 2
  | 3%nat, 1%nat => 13 / 12 * (v (-1)%Z - 2 * v 0%Z + v 1%Z) ^ 2 + 1 / 4 * (v (-1)%Z - v 1%Z) ^ 2
  | 3%nat, 2%nat => 13 / 12 * (v (-2)%Z - 2 * v (-1)%Z + v 0%Z) ^ 2
                    + 1 / 4 * (v (-2)%Z - 4 * v (-1)%Z + 3 * v 0%Z) ^ 2
  | _, _ => 0
  end.
(** The optimal weights, /repo/alsfvm/src/reconstruction/WENOCoefficients.cpp. *)
Definition weno_coef (k i : nat) : R :=
  match k, i with
  | 2%nat, O => 2 / 3 | 2%nat, 1%nat => 1 / 3
  | 3%nat, O => 3 / 10 | 3%nat, 1%nat => 3 / 5 | 3%nat, 2%nat => 1 / 10
  | _, _ => 0
  end.
(** computeAlpha, WENOCPU.cpp lines 35-60. *)
Definition alpha_right (k : nat) (v : Z -> R) (i : nat) : R :=
  weno_coef k i / (weno_beta k i v + weno_eps) ^ 2.
Definition alpha_left (k : nat) (v : Z -> R) (i : nat) : R :=
  weno_coef k (k - 1 - i) / (weno_beta k i v + weno_eps) ^ 2.
Fixpoint rsum (n : nat) (f : nat -> R) : R :=
  match n with O => 0 | S n => rsum n f + f n end.
Fixpoint vsum {V : cvars} (n : nat) (f : nat -> V) : V :=
  match n with O => vzero | S n => vadd (vsum n f) (f n) end.
(** WENOCPU<k>::performReconstruction for one cell, lines 135-191. *)
Definition weno {V : cvars} (k : nat) (ind : V -> R) (u : Z -> V) : V * V :=
  let v o := ind (u o) in
  (vsum k (fun s => vscal (alpha_left k v s / rsum k (alpha_left k v)) (stencil_left u k s)),
   vsum k (fun s => vscal (alpha_right k v s / rsum k (alpha_right k v)) (stencil_right u k s))).

(** WENO2.hpp lines 37-71 (`weno2`): the weights from the three indicator values,
    then the values. *)
Definition weno2_weights (il i0 ir : R) : (R * R) * (R * R) :=
  let b0 := (ir - i0) ^ 2 in
  let b1 := (i0 - il) ^ 2 in
  let a0l := 1 / (3 * (weno_eps + b0) * (weno_eps + b0)) in
  let a1l := 2 / (3 * (weno_eps + b1) * (weno_eps + b1)) in
  let a0r := 2 / (3 * (weno_eps + b0) * (weno_eps + b0)) in
  let a1r := 1 / (3 * (weno_eps + b1) * (weno_eps + b1)) in
  ((a0l / (a0l + a1l), a1l / (a0l + a1l)), (a0r / (a0r + a1r), a1r / (a0r + a1r))).
Definition weno2 {V : cvars} (ind : V -> R) (l m r : V) : V * V :=
  let w := weno2_weights (ind l) (ind m) (ind r) in
  let w0l := fst (fst w) in
  let w1l := snd (fst w) in
  let w0r := fst (snd w) in
  let w1r := snd (snd w) in
  (vscal (1 / 2) (vadd (vadd (vscal w1l l) (vscal (3 * w0l + w1l) m)) (vscal (- w0l) r)),
   vscal (1 / 2) (vadd (vadd (vscal w0r r) (vscal (3 * w1r + w0r) m)) (vscal (- w1r) l))).

(** The reconstruction objects (ReconstructionFactory.cpp lines 60-159): eno2,
    eno3, eno4 are ENOCPU, weno3 is WENOCPU<3>, weno2 is ReconstructionCPU<WENO2>. *)
Definition at_ {V : cvars} (k : nat) (us : list V) (o : Z) : V :=
  nth (Z.to_nat (o + Z.of_nat k - 1)) us vzero.
Definition eno_recon {V : cvars} (k : nat) (ind : V -> R) : recon V :=
  mkrecon (Z.of_nat k) false (fun us => eno k ind (at_ k us)).
Definition weno_recon {V : cvars} (k : nat) (ind : V -> R) : recon V :=
  mkrecon (Z.of_nat k) true (fun us => weno k ind (at_ k us)).
Definition weno2_recon {V : cvars} (ind : V -> R) : recon V :=
  mkrecon 2 false (fun us => match us with [l; m; r] => weno2 ind l m r | _ => (vzero, vzero) end).

(** ** WENOF2 (WENOF2.hpp lines 34-113), Euler only *)
Section Wenof2.
Variable n : nat.
Variable gamma : R.
(** PrimitiveVariables.hpp lines 75-99. *)
Definition padd (a b : prim n) : prim n :=
  mkprim (p_rho a + p_rho b) (vadd (p_u a) (p_u b)) (p_p a + p_p b).
Definition pscal (c : R) (a : prim n) : prim n :=
  mkprim (c * p_rho a) (vscal c (p_u a)) (c * p_p a).
Definition psub (a b : prim n) : prim n :=
  mkprim (p_rho a - p_rho b) (vadd (p_u a) (vscal (-1) (p_u b))) (p_p a - p_p b).

(** BOUND, line 40. *)
Definition bound : R := 19 / 10.
(** lines 74-76, 98-100 *)
Definition clamp (c x : R) : R := Rmax (- bound * c) (Rmin (bound * c) x).
Definition pclamp (m d : prim n) : prim n :=
  mkprim (clamp (p_rho m) (p_rho d)) (p_u d) (clamp (p_p m) (p_p d)).
(** LL, lines 78-80, 102-104, and the damping factor, lines 83-84, 106. *)
Definition wenof2_ll (m d : prim n) : R :=
  1 / 8 * p_rho m * vdot n (p_u d) (p_u d)
  - 1 / 2 * Rmin 0 (p_rho d * vdot n (p_u m) (p_u d))
  + 1 / 2 * p_rho d * p_rho d * vdot n (p_u d) (p_u d) / p_rho m.
Definition wenof2_damp (m d : prim n) : R :=
  let r := p_p m / (gamma - 1) in 1 / 2 * sqrt (r / Rmax r (wenof2_ll m d)).
Definition wenof2 (l m r : cons n) : cons n * cons n :=
  let w := weno2_weights (rho_ l) (rho_ m) (rho_ r) in
  let pl := to_prim n gamma l in
  let pm := to_prim n gamma m in
  let pr := to_prim n gamma r in
  let dl := pclamp pm (padd (pscal (snd (fst w)) (psub pm pl)) (pscal (fst (fst w)) (psub pr pm))) in
  let dr := pclamp pm (padd (pscal (snd (snd w)) (psub pm pl)) (pscal (fst (snd w)) (psub pr pm))) in
  (to_cons n gamma (psub pm (pscal (wenof2_damp pm dl) dl)),
   to_cons n gamma (padd pm (pscal (wenof2_damp pm dr) dr))).
Definition wenof2_recon : recon (euler_cvars n) :=
  mkrecon 2 false (fun us => match us with [l; m; r] => wenof2 l m r | _ => (vzero, vzero) end).
End Wenof2.
