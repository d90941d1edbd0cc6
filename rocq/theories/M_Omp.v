(** The OpenMP loops.

    A [parallel for] runs its iterations concurrently: the accesses of different
    iterations may be interleaved in any way (which thread gets which iterations
    only rules interleavings out), and there is a barrier at its end.  Two
    conflicting accesses of different iterations that may come next to each other
    are a data race, hence undefined. *)
From Coq Require Import ZArith Reals List Bool Permutation.
From Verif Require Import M_Base M_Vec M_Boundary M_Flux M_Sim M_Memory.
Import ListNotations.
Open Scope Z_scope.

Section Omp.
(** Elements of the shared arrays; contributions to a reduction. *)
Context {A X : Type}.
(** Lengths of the arrays. *)
Variable size : Z -> Z.

Definition shared : Type := Z -> Z -> A.
Definition put (m : shared) (a i : Z) (v : A) : shared :=
  fun b j => if (b =? a) && (j =? i) then v else m b j.

(** A sequence of accesses to shared arrays: array number and element. *)
Inductive prog : Type :=
| Ret (xs : list X)
| Fetch (a i : Z) (k : A -> prog)
| Store (a i : Z) (v : A) (k : prog)
| Fail.

Definition inside (a i : Z) : bool := (0 <=? i) && (i <? size a).

(** Running alone. *)
Fixpoint run (p : prog) (m : shared) : res (shared * list X) :=
  match p with
  | Ret xs => Ok (m, xs)
  | Fetch a i k => if inside a i then run (k (m a i)) m else UB
  | Store a i v k => if inside a i then run k (put m a i v) else UB
  | Fail => UB
  end.

Fixpoint after_ (xs : list X) (q : prog) : prog :=
  match q with
  | Ret ys => Ret (xs ++ ys)
  | Fetch a i k => Fetch a i (fun v => after_ xs (k v))
  | Store a i v k => Store a i v (after_ xs k)
  | Fail => Fail
  end.
Fixpoint then_ (p q : prog) : prog :=
  match p with
  | Ret xs => after_ xs q
  | Fetch a i k => Fetch a i (fun v => then_ (k v) q)
  | Store a i v k => Store a i v (then_ k q)
  | Fail => Fail
  end.

(** A sequential loop inside an iteration. *)
Definition inner_loop (l : list Z) (body : Z -> prog) : prog :=
  fold_right (fun x p => then_ (body x) p) (Ret []) l.

(** One access of one of the iterations. *)
Inductive pstep : shared * list prog -> shared * list prog -> Prop :=
| step_load m l a i k r : inside a i = true ->
    pstep (m, l ++ Fetch a i k :: r) (m, l ++ k (m a i) :: r)
| step_store m l a i v k r : inside a i = true ->
    pstep (m, l ++ Store a i v k :: r) (put m a i v, l ++ k :: r).

Inductive psteps : nat -> shared * list prog -> shared * list prog -> Prop :=
| psteps_0 s : psteps 0 s s
| psteps_S n s s1 s2 : pstep s s1 -> psteps n s1 s2 -> psteps (S n) s s2.

(** The next access: is it a store, array, element. *)
Definition next (p : prog) : option (bool * Z * Z) :=
  match p with
  | Fetch a i _ => Some (false, a, i)
  | Store a i _ _ => Some (true, a, i)
  | _ => None
  end.

(** Undefined behaviour: an access outside an array, or a data race. *)
Inductive undefined : shared * list prog -> Prop :=
| undefined_fail m l r : undefined (m, l ++ Fail :: r)
| undefined_access m l p r w a i : next p = Some (w, a, i) -> inside a i = false ->
    undefined (m, l ++ p :: r)
| undefined_race m l p c q r w w' a i :
    next p = Some (w, a, i) -> next q = Some (w', a, i) -> w || w' = true ->
    undefined (m, l ++ p :: c ++ q :: r).

(** The outcomes of one parallel loop. *)
Inductive outcome (ps : list prog) (m : shared) : res (shared * list X) -> Prop :=
| outcome_ok n m' xss : psteps n (m, ps) (m', map Ret xss) -> outcome ps m (Ok (m', concat xss))
| outcome_ub n s : psteps n (m, ps) s -> undefined s -> outcome ps m UB.

(** Several parallel loops one after the other. *)
Inductive outcomes : list (list prog) -> shared -> res (shared * list X) -> Prop :=
| outcomes_nil m : outcomes [] m (Ok (m, []))
| outcomes_ub ps pss m : outcome ps m UB -> outcomes (ps :: pss) m UB
| outcomes_later ps pss m m1 xs : outcome ps m (Ok (m1, xs)) -> outcomes pss m1 UB ->
    outcomes (ps :: pss) m UB
| outcomes_ok ps pss m m1 xs m2 ys : outcome ps m (Ok (m1, xs)) -> outcomes pss m1 (Ok (m2, ys)) ->
    outcomes (ps :: pss) m (Ok (m2, xs ++ ys)).

(** The same on one thread. *)
Definition run_loop (ps : list prog) (m : shared) : res (shared * list X) :=
  fold_res (fun p s => r <- run p (fst s);; Ok (fst r, snd s ++ snd r)) ps (m, []).
Definition run_loops (pss : list (list prog)) (m : shared) : res (shared * list X) :=
  fold_res (fun ps s => r <- run_loop ps (fst s);; Ok (fst r, snd s ++ snd r)) pss (m, []).

(** for z { parallel for y { for x { body } } } and
    for z { for y { parallel for x { body } } }. *)
Definition par_y (zlo zhi ylo yhi xlo xhi : Z) (body : Z -> Z -> Z -> prog) : list (list prog) :=
  map (fun z => map (fun y => inner_loop (zrange xlo xhi) (fun x => body x y z)) (zrange ylo yhi))
      (zrange zlo zhi).
Definition par_x (zlo zhi ylo yhi xlo xhi : Z) (body : Z -> Z -> Z -> prog) : list (list prog) :=
  flat_map (fun z => map (fun y => map (fun x => body x y z) (zrange xlo xhi)) (zrange ylo yhi))
           (zrange zlo zhi).

(** Reduction clause: the contributions are combined in any order and any
    grouping. *)
Inductive reduced (op : X -> X -> X) : list X -> X -> Prop :=
| reduced_one x : reduced op [x] x
| reduced_two l1 l2 l x y : Permutation l (l1 ++ l2) ->
    reduced op l1 x -> reduced op l2 y -> reduced op l (op x y).

(** Accesses of a volume of extents (nx, ny, nz), as [vload] and [vstore]. *)
Variables nx ny nz : Z.
Definition cell_in (x y z : Z) : bool :=
  (0 <=? x) && (x <? nx) && (0 <=? y) && (y <? ny) && (0 <=? z) && (z <? nz).
Definition pload (a x y z : Z) (k : A -> prog) : prog :=
  if cell_in x y z then Fetch a (index nx ny x y z) k else Fail.
Definition pstore (a x y z : Z) (v : A) (k : prog) : prog :=
  if cell_in x y z then Store a (index nx ny x y z) v k else Fail.
Fixpoint ploads (a : Z) (cs : list cell) (k : list A -> prog) : prog :=
  match cs with
  | [] => k []
  | (x, y, z) :: cs' => pload a x y z (fun v => ploads a cs' (fun vs => k (v :: vs)))
  end.

End Omp.
Arguments shared : clear implicits.
Arguments prog : clear implicits.

(** * The loops of the right hand side *)
Section Flux.
Context {V : cvars}.

(** The arrays: conserved variables, left, right, temporaryVolume, output. *)
Definition a_u : Z := 0.
Definition a_left : Z := 1.
Definition a_right : Z := 2.
Definition a_temp : Z := 3.
Definition a_out : Z := 4.

Variables (dims g : Z) (fx : numflux V) (rc : recon V) (nx ny nz : Z) (start fin : ivec).

(** A contribution to the wave speed of a direction. *)
Definition pr : Type := prog V (Z * R).
Definition extent (k : Z) : Z := if k =? 0 then nx else if k =? 1 then ny else nz.

(** makeZero, /repo/alsfvm/src/numflux/NumericalFluxCPU.cpp lines 121-146, with the
    pragma of line 135. *)
Definition zero_body (x y z : Z) : pr := pstore nx ny nz a_out x y z vzero (Ret []).
Definition omp_make_zero : list (list pr) :=
  let ng := ghost dims g in
  par_y (ng 2 + start 2) (nz - ng 2 + fin 2) (ng 1 + start 1) (ny - ng 1 + fin 1)
        (ng 0 + start 0) (nx - ng 0 + fin 0) zero_body.

(** performReconstruction: parallel over y in
    /repo/alsfvm/src/reconstruction/ReconstructionCPU.cpp line 87, over x in
    WENOCPU.cpp line 127; NoReconstruction is sequential, which is one of the
    interleavings.  The pointwise form of ENOCPU reads the whole stencil; its
    loops with the divided difference arrays are [omp_eno] in M_OmpEno. *)
Definition recon_body (d x y z : Z) : pr :=
  ploads nx ny nz a_u
    (map (fun j => (x + unit_ d 0 * j, y + unit_ d 1 * j, z + unit_ d 2 * j))
         (zrange (- (rec_ghosts rc - 1)) (rec_ghosts rc)))
    (fun us => pstore nx ny nz a_left x y z (fst (rec_fun rc us))
                 (pstore nx ny nz a_right x y z (snd (rec_fun rc us)) (Ret []))).
Definition omp_reconstruct (d : Z) : list (list pr) :=
  let r := rec_ghosts rc in
  let lo k := if rec_all rc then unit_ d k * (r - 1) else (ghost dims r k - unit_ d k) + start k in
  let hi k := if rec_all rc then extent k - unit_ d k * (r - 1)
              else extent k - (ghost dims r k - unit_ d k) + fin k in
  (if rec_all rc then par_x else par_y)
    (lo 2) (hi 2) (lo 1) (hi 1) (lo 0) (hi 0) (recon_body d).

(** computeNetFlux, NumericalFluxCPU.cpp lines 32-118, with the pragmas of lines 68
    and 101. *)
Definition flux_body (d x y z : Z) : pr :=
  let finish (fs : V * R) := pstore nx ny nz a_temp x y z (vscal (-1) (fst fs)) (Ret [(d, snd fs)]) in
  match fx with
  | Flux2 f =>
      pload nx ny nz a_left (x + unit_ d 0) (y + unit_ d 1) (z + unit_ d 2) (fun r =>
      pload nx ny nz a_right x y z (fun l => finish (f d l r)))
  | FluxN st f =>
      ploads nx ny nz a_left
        (map (fun s => (x + unit_ d 0 * s, y + unit_ d 1 * s, z + unit_ d 2 * s)) st)
        (fun us => finish (f d us))
  end.
Definition difference_body (d x y z : Z) : pr :=
  pload nx ny nz a_temp (x + unit_ d 0) (y + unit_ d 1) (z + unit_ d 2) (fun fmr =>
  pload nx ny nz a_temp x y z (fun m =>
  pload nx ny nz a_out (x + unit_ d 0) (y + unit_ d 1) (z + unit_ d 2) (fun old =>
  pstore nx ny nz a_out (x + unit_ d 0) (y + unit_ d 1) (z + unit_ d 2)
    (vadd old (vadd fmr (vscal (-1) m))) (Ret [])))).
Definition omp_net_flux (d : Z) : list (list pr) :=
  let ng := ghost dims g in
  par_y (ng 2 - unit_ d 2 + start 2) (nz - ng 2 + fin 2)
        (ng 1 - unit_ d 1 + start 1) (ny - ng 1 + fin 1)
        (ng 0 - unit_ d 0 + start 0) (nx - ng 0 + fin 0) (flux_body d) ++
  par_y (ng 2 - unit_ d 2 + start 2) (nz - ng 2 + fin 2 - unit_ d 2)
        (ng 1 - unit_ d 1 + start 1) (ny - ng 1 + fin 1 - unit_ d 1)
        (ng 0 - unit_ d 0 + start 0) (nx - ng 0 + fin 0 - unit_ d 0) (difference_body d).

(** What the arrays hold. *)
Definition flux_mem (u : vol V) (s : fstate V) : shared V := fun a =>
  if a =? a_left then vdat (f_left s) else if a =? a_right then vdat (f_right s)
  else if a =? a_temp then vdat (f_temp s) else if a =? a_out then vdat (f_out s) else vdat u.

(** computeFlux, NumericalFluxCPU.cpp lines 170-221. *)
Definition omp_compute_flux : list (list pr) :=
  omp_make_zero ++ flat_map (fun d => omp_reconstruct d ++ omp_net_flux d) (zrange 0 dims).
End Flux.

(** * The element-wise loops of HostMemory *)

(** [parallel for simd] over [data[i] = f(data[i], others[i]...)],
    /repo/alsfvm/src/memory/HostMemory.cpp lines 103-311.  Array 0 is data; the
    others are given by number, which may be 0 again. *)
Fixpoint loads_at (ws : list Z) (i : Z) (k : list R -> prog R unit) : prog R unit :=
  match ws with
  | [] => k []
  | w :: ws' => Fetch w i (fun v => loads_at ws' i (fun vs => k (v :: vs)))
  end.
Definition omp_elementwise (hi : Z) (ws : list Z) (f : R -> list R -> R) : list (list (prog R unit)) :=
  [map (fun i => Fetch 0 i (fun a => loads_at ws i (fun bs => Store 0 i (f a bs) (Ret [])))) (zrange 0 hi)].
