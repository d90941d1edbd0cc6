(** The TeCNO diffusion operator on the CPU. *)
From Coq Require Import ZArith Reals List Bool.
From Verif Require Import M_Base M_Vec M_Boundary M_Flux M_Scalar M_Euler M_EulerEigen M_Recon.
Import ListNotations.
Open Scope R_scope.

(** The vector of conserved variables as an rvec, i.e. indexed by
    0 .. dim - 1.  setViewAt / addToViewAt and fetchConservedVariables store and
    load the components in this order
    (e.g. /repo/alsfvm/include/alsfvm/equation/euler/Euler.hpp lines 100-190). *)
Record basis (V : cvars) : Type := mkbasis {
  bdim : nat;
  comps : V -> list R;
  of_comps : list R -> V;
  comps_length : forall v, length (comps v) = bdim;
  comps_of : forall l, length l = bdim -> comps (of_comps l) = l;
  comps_zero : comps vzero = repeat 0 bdim;
  comps_add : forall a b, comps (vadd a b) = map (fun p => fst p + snd p) (combine (comps a) (comps b));
  comps_scal : forall c a, comps (vscal c a) = map (Rmult c) (comps a)
}.
Arguments bdim {V}.
Arguments comps {V}.
Arguments of_comps {V}.

Definition scalar_basis : basis scalar_cvars.
Proof.
  refine (mkbasis scalar_cvars 1 (fun v => [v]) (fun l => match l with x :: _ => x | [] => 0 end) _ _ _ _ _);
    try reflexivity.
  intros [|x [|y l]] H; try discriminate. reflexivity.
Defined.

Definition unit_basis : basis unit_cvars.
Proof.
  refine (mkbasis unit_cvars 0 (fun _ => []) (fun _ => tt) _ _ _ _ _); try reflexivity.
  intros [|x l] H; [reflexivity|discriminate].
Defined.

Lemma combine_app {A B} (a a' : list A) (b b' : list B) : length a = length b ->
  combine (a ++ a') (b ++ b') = combine a b ++ combine a' b'.
Proof. revert b. induction a as [|x a IH]; intros [|y b] H; try discriminate; cbn; [reflexivity|]. f_equal. apply IH. now injection H. Qed.

Definition pair_basis {U W : cvars} (bu : basis U) (bw : basis W) : basis (pair_cvars U W).
Proof.
  refine (mkbasis (pair_cvars U W) (bdim bu + bdim bw)
    (fun v => comps bu (fst v) ++ comps bw (snd v))
    (fun l => (of_comps bu (firstn (bdim bu) l), of_comps bw (skipn (bdim bu) l))) _ _ _ _ _).
  - intros [a b]. cbn [fst snd]. now rewrite app_length, !comps_length.
  - intros l H. cbn [fst snd]. rewrite !comps_of.
    + apply firstn_skipn.
    + rewrite skipn_length, H. now rewrite Nat.add_comm, Nat.add_sub.
    + apply firstn_length_le. rewrite H. apply Nat.le_add_r.
  - cbn. rewrite !comps_zero. symmetry. apply repeat_app.
  - intros [a a'] [b b']. cbn. rewrite !comps_add, combine_app by now rewrite !comps_length.
    symmetry. apply map_app.
  - intros c [a b]. cbn. rewrite !comps_scal. symmetry. apply map_app.
Defined.

Fixpoint vec_basis (n : nat) : basis (vec_cvars n) :=
  match n with O => unit_basis | S n => pair_basis scalar_basis (vec_basis n) end.
Definition euler_basis (n : nat) : basis (euler_cvars n) :=
  pair_basis scalar_basis (pair_basis (vec_basis n) scalar_basis).

Section Diffusion.
Context {V : cvars} (bs : basis V).

(** Matrix given by its columns: product with a vector and product of the
    transpose with a vector, /repo/alsfvm/include/alsfvm/types/mat.hpp
    lines 54-70 and 90-101. *)
Definition dot (a b : V) : R := fold_right Rplus 0 (map (fun p => fst p * snd p) (combine (comps bs a) (comps bs b))).
Definition mat_t (cols : list V) (y : V) : V := of_comps bs (map (fun c => dot c y) cols).
Definition mat (cols : list V) (x : V) : V :=
  fold_right (fun p acc => vadd (vscal (fst p) (snd p)) acc) vzero (combine (comps bs x) cols).

(** RoeMatrix.hpp lines 36-47 and RusanovMatrix.hpp lines 36-56
    (/repo/alsfvm/include/alsfvm/diffusion): the weights of the components. *)
Inductive dmatrix := Roe | RusanovM.
Definition weights (m : dmatrix) (eigs : list R) : list R :=
  match m with
  | Roe => map Rabs eigs
  | RusanovM => let mx := fold_left (fun a l => Rmax (Rabs l) a) eigs 0 in map (fun _ => mx) eigs
  end.
Definition diag (w : list R) (x : V) : V :=
  of_comps bs (map (fun p => fst p * snd p) (combine w (comps bs x))).

(** What the operator needs from the equation: computeEntropyVariables,
    the columns of computeEigenVectorMatrix<direction> and
    computeEigenValues<direction>. *)
Record diff_eq : Type := mkdiff {
  dentropy : V -> V;
  dcols : Z -> V -> list V;
  deigs : Z -> V -> list R
}.
Variables (eq : diff_eq) (m : dmatrix).

(** The four volumes owned by the operator. *)
Record dstate : Type := mkdstate { d_el : vol V; d_er : vol V; d_left : vol V; d_right : vol V }.

Definition average (a b : V) : V := vscal (1 / 2) (vadd a b).

(** First loop of applyDiffusionCPU,
    /repo/alsfvm/src/diffusion/TecnoDiffusionCPU.cpp lines 43-64; bounds from
    for_each_cell_index_with_neighbours,
    /repo/alsfvm/include/alsfvm/volume/volume_foreach.hpp lines 71-99. *)
Definition project (d : Z) (u el er : vol V) : res (vol V * vol V) :=
  for3 (unit_ d 2) (vnz u - unit_ d 2) (unit_ d 1) (vny u - unit_ d 1) (unit_ d 0) (vnx u - unit_ d 0)
    (fun x y z s =>
       um <- vload u x y z;;
       ul <- vload u (x - unit_ d 0) (y - unit_ d 1) (z - unit_ d 2);;
       let cols := dcols eq d (average um ul) in
       el' <- vstore (fst s) x y z (mat_t cols (dentropy eq um));;
       er' <- vstore (snd s) (x - unit_ d 0) (y - unit_ d 1) (z - unit_ d 2) (mat_t cols (dentropy eq ul));;
       Ok (el', er')) (el, er).

(** tecno::NoReconstruction, /repo/alsfvm/src/reconstruction/tecno/NoReconstruction.cpp
    lines 21-44: every cell, ghost cells included, is copied. *)
Definition tecno_copy (el er left right : vol V) : res (vol V * vol V) :=
  for3 0 (vnz el) 0 (vny el) 0 (vnx el) (fun x y z s =>
    a <- vload el x y z;;
    b <- vload er x y z;;
    l' <- vstore (fst s) x y z a;;
    r' <- vstore (snd s) x y z b;;
    Ok (l', r')) (left, right).

(** The lambda `diffusion` of the second loop, lines 76-92, for the interface
    between cell (x, y, z) and its right neighbour. *)
Definition face_diffusion (d : Z) (u left right : vol V) (x y z : Z) : res V :=
  lv <- vload right x y z;;
  rv <- vload left (x + unit_ d 0) (y + unit_ d 1) (z + unit_ d 2);;
  ur <- vload u (x + unit_ d 0) (y + unit_ d 1) (z + unit_ d 2);;
  ul <- vload u x y z;;
  let s := average ur ul in
  Ok (vscal (1 / 2) (mat (dcols eq d s) (diag (weights m (deigs eq d s)) (vadd rv (vscal (-1) lv))))).

(** Second loop, lines 73-97. *)
Definition add_diffusion (d : Z) (u left right out : vol V) : res (vol V) :=
  for3 (unit_ d 2) (vnz u - unit_ d 2) (unit_ d 1) (vny u - unit_ d 1) (unit_ d 0) (vnx u - unit_ d 0)
    (fun x y z out =>
       a <- face_diffusion d u left right x y z;;
       b <- face_diffusion d u left right (x - unit_ d 0) (y - unit_ d 1) (z - unit_ d 2);;
       o <- vload out x y z;;
       vstore out x y z (vadd o (vadd a (vscal (-1) b)))) out.

(** applyDiffusionCPU<direction>, lines 28-99. *)
Definition diffuse_dir (d : Z) (u : vol V) (s : dstate) (out : vol V) : res (dstate * vol V) :=
  e <- project d u (d_el s) (d_er s);;
  lr <- tecno_copy (fst e) (snd e) (d_left s) (d_right s);;
  out' <- add_diffusion d u (fst lr) (snd lr) out;;
  Ok (mkdstate (fst e) (snd e) (fst lr) (snd lr), out').

(** applyDiffusion, lines 116-168, once the four volumes exist. *)
Definition apply_diffusion (dims : Z) (u : vol V) (s : dstate) (out : vol V) : res (dstate * vol V) :=
  fold_res (fun d so => diffuse_dir d u (fst so) (snd so)) (zrange 0 dims) (s, out).
End Diffusion.
Arguments mkdiff {V}.
Arguments dentropy {V}.
Arguments dcols {V}.
Arguments deigs {V}.
Arguments mkdstate {V}.
Arguments d_el {V}.
Arguments d_er {V}.
Arguments d_left {V}.
Arguments d_right {V}.

(** createConservedVolume: fresh host memory holds the value 42
    (/repo/alsfvm/src/memory/HostMemory.cpp lines 36-37); [a] is the vector of
    42s. *)
Definition fresh_dstate {V : cvars} (a : V) (u : vol V) : dstate (V := V) :=
  let v := mkvol (vnx u) (vny u) (vnz u) (fun _ => a) in mkdstate v v v v.

(** Burgers: /repo/alsfvm/include/alsfvm/equation/burgers/Burgers.hpp
    lines 247-257 and 286-302. *)
Definition burgers_diffusion : diff_eq (V := scalar_cvars) :=
  mkdiff (V := scalar_cvars) entropy_var (fun _ _ => [1]) (fun _ u => [u]).
(** Euler: computeEntropyVariables, computeEigenVectorMatrix,
    computeEigenValues as in M_Euler and M_EulerEigen. *)
Definition euler_diffusion (n : nat) (gamma : R) : diff_eq (V := euler_cvars n) :=
  mkdiff (V := euler_cvars n) (euler_entropy_vars n gamma) (fun d => eigen_columns gamma n (Z.to_nat d))
    (fun d => eigen_values gamma n (Z.to_nat d)).
