(** Cell exchange between GPUs, /repo/alsfvm/src/mpi/CudaCartesianCellExchanger.cu. *)
From Coq Require Import ZArith List Bool.
From Verif Require Import M_Base M_Flux M_Sim M_Mpi M_Omp M_Cuda.
Import ListNotations.
Open Scope Z_scope.

(** hasSide, lines 166-168. *)
Definition cuda_has_side (nb : Z -> Z) (side : Z) : bool := negb (nb side =? -1).

Section Boxes.
(** Active directions, ghost cells and total extents of the exchanged volumes. *)
Variables (dims g : Z) (E : ivec).

Definition vec (x y z : Z) : ivec := fun k => if k =? 0 then x else if k =? 1 then y else z.
Definition plus3 (a b : ivec) : ivec := fun k => a k + b k.
Definition minus3 (a b : ivec) : ivec := fun k => a k - b k.

(** The first cell and the end of what is sent from a side (extractSides, lines
    207-254) and of where the received cells go (insertSides, lines 293-334). *)
Definition extract_start (side : Z) : ivec :=
  let ng := ghost dims g in
  if side =? 0 then vec (ng 0) 0 0 else if side =? 1 then vec (E 0 - 2 * ng 0) 0 0
  else if side =? 2 then vec 0 (ng 1) 0 else if side =? 3 then vec 0 (E 1 - 2 * ng 1) 0
  else if side =? 4 then vec 0 0 (ng 2) else vec 0 0 (E 2 - 2 * ng 2).
Definition extract_end (side : Z) : ivec :=
  let ng := ghost dims g in
  if side =? 0 then vec (2 * ng 0) (E 1) (E 2) else if side =? 1 then vec (E 0 - ng 0) (E 1) (E 2)
  else if side =? 2 then vec (E 0) (2 * ng 1) (E 2) else if side =? 3 then vec (E 0) (E 1 - ng 1) (E 2)
  else if side =? 4 then vec (E 0) (E 1) (2 * ng 2) else vec (E 0) (E 1) (E 2 - ng 2).
Definition insert_start (side : Z) : ivec :=
  let ng := ghost dims g in
  if side =? 0 then vec 0 0 0 else if side =? 1 then vec (E 0 - ng 0) 0 0
  else if side =? 2 then vec 0 0 0 else if side =? 3 then vec 0 (E 1 - ng 1) 0
  else if side =? 4 then vec 0 0 0 else vec 0 0 (E 2 - ng 2).
Definition insert_end (side : Z) : ivec :=
  let ng := ghost dims g in
  if side =? 0 then vec (ng 0) (E 1) (E 2) else if side =? 1 then vec (E 0) (E 1) (E 2)
  else if side =? 2 then vec (E 0) (ng 1) (E 2) else if side =? 3 then vec (E 0) (E 1) (E 2)
  else if side =? 4 then vec (E 0) (E 1) (ng 2) else vec (E 0) (E 1) (E 2).

(** Extents of the buffers of a side, makeBuffers, lines 365-375. *)
Definition buffer_extents (side : Z) : ivec :=
  let ng := ghost dims g in
  vec (b2z (1 <? side) * E 0 + b2z (side <? 2) * ng 0)
      (b2z (negb (side =? 2)) * b2z (negb (side =? 3)) * E 1 + (b2z (side =? 2) + b2z (side =? 3)) * ng 1)
      (b2z (negb (side =? 4)) * b2z (negb (side =? 5)) * E 2 + (b2z (side =? 4) + b2z (side =? 5)) * ng 2).

(** * The kernels

    Memory areas of the device: the area of variable [v] of the volume, and the
    buffers of lines 379-380. *)
Definition a_volume (v : Z) : Z := 7 * v + 6.
Definition a_buffer (v side : Z) : Z := 7 * v + side.
Context {A : Type}.
Definition xpr : Type := prog A unit.

(** extractSideDevice, lines 25-48. *)
Definition extract_body (v side x y z : Z) : xpr :=
  let s := extract_start side in
  Fetch (a_volume v) (at_ E (x + s 0) (y + s 1) (z + s 2)) (fun a =>
  Store (a_buffer v side) (at_ (buffer_extents side) x y z) a (Ret [])).
(** insertSideDevice, lines 51-74. *)
Definition insert_body (v side x y z : Z) : xpr :=
  let s := insert_start side in
  Fetch (a_buffer v side) (at_ (buffer_extents side) x y z) (fun a =>
  Store (a_volume v) (at_ E (x + s 0) (y + s 1) (z + s 2)) a (Ret [])).

(** One launch, lines 175-189 and 264-287. *)
Definition side_launch (first last : ivec) (body : Z -> Z -> Z -> xpr) : list xpr :=
  let n := minus3 last first in
  if n 0 * n 1 * n 2 <=? 0 then [] else kernel 512 n (fun _ => 0) body.

(** extractSides: every launch is on a stream of its own (lines 184-189), so all
    of them run concurrently.  The copies to the host (lines 192-196) follow the
    launch of their stream.  [nb] are the neighbours; sides 2 to 5 only in volumes
    of more dimensions (lines 228, 240). *)
Definition extract_launches (nvars : Z) (nb : Z -> Z) : list xpr :=
  flat_map (fun side => if cuda_has_side nb side then
    flat_map (fun v => side_launch (extract_start side) (extract_end side) (extract_body v side)) (zrange 0 nvars)
    else []) (zrange 0 (2 * dims)).
(** insertSides: likewise.  The copies from the host (lines 274-278) go to the
    buffer of their stream before its launch; no other stream uses it, so they are
    taken to be done at the beginning. *)
Definition insert_launches (nvars : Z) (nb : Z -> Z) : list xpr :=
  flat_map (fun side => if cuda_has_side nb side then
    flat_map (fun v => side_launch (insert_start side) (insert_end side) (insert_body v side)) (zrange 0 nvars)
    else []) (zrange 0 (2 * dims)).

(** * What an extraction and an insertion come to

    Volumes and buffers by cell.  [shift c s] is cell [c] moved by [s]. *)
Definition shift (c : cell) (s : ivec) : cell := let '(x, y, z) := c in (x + s 0, y + s 1, z + s 2).
Definition unshift (c : cell) (s : ivec) : cell := let '(x, y, z) := c in (x - s 0, y - s 1, z - s 2).
Definition within (lo hi : ivec) (c : cell) : bool :=
  let '(x, y, z) := c in
  (lo 0 <=? x) && (x <? hi 0) && (lo 1 <=? y) && (y <? hi 1) && (lo 2 <=? z) && (z <? hi 2).
Definition extracted (side : Z) (u : cell -> A) (c : cell) : A := u (shift c (extract_start side)).

(** The insertions of two sides can store to the same cell; [last] says which
    one is the later of them. *)
Definition covers (nb : Z -> Z) (side : Z) (c : cell) : bool :=
  (0 <=? side) && (side <? 2 * dims) && cuda_has_side nb side && within (insert_start side) (insert_end side) c.
Definition winner (nb : Z -> Z) (last : Z) (c : cell) : option Z :=
  if covers nb last c then Some last else find (fun s => covers nb s c) (rev (zrange 0 (2 * dims))).
Definition inserted (nb : Z -> Z) (last : cell -> Z) (buf : Z -> cell -> A) (u : cell -> A) (c : cell) : A :=
  match winner nb (last c) c with
  | Some s => buf s (unshift c (insert_start s))
  | None => u c
  end.
End Boxes.

(** * A run of exchanges

    All processes call exchangeCells again and again.  Exchange number [k] of
    process [r] is given the volume [u k r]: variable, cell.  Between exchanges the
    processes compute, whatever; after exchange [k] they take part in an
    MPI_Allreduce (lines 160-165) if [reduce k]. *)
Section Run.
Context {A : Type}.
Variables (dims g : Z) (E : ivec) (nvars np : Z) (nb : Z -> Z -> Z).
Variable reduce : nat -> bool.
Variable u : nat -> Z -> Z -> cell -> A.

(** Where a process is: before extractSides (line 104), before the posts, at
    insertSides (line 140), in the reduction. *)
Inductive stage : Type := Begin | Extracted | Posted | Reducing.

(** cpuBuffersSend and cpuBuffersReceive, the elements of message ([k], [a], [v],
    [side]) sent by process [a] in exchange [k], and what the exchanges made of
    their volumes. *)
Record xstate : Type := mkx {
  x_round : Z -> nat;
  x_stage : Z -> stage;
  x_send : Z -> Z -> Z -> cell -> A;
  x_recv : Z -> Z -> Z -> cell -> A;
  x_net : nat -> Z -> Z -> Z -> cell -> transit A;
  x_out : nat -> Z -> Z -> cell -> A
}.

Definition upd {B} (f : Z -> B) (r : Z) (b : B) : Z -> B := fun q => if q =? r then b else f q.
Definition updk {B} (f : nat -> B) (k : nat) (b : B) : nat -> B := fun j => if Nat.eqb j k then b else f j.
Definition cell_is (a b : cell) : bool :=
  let '(x, y, z) := a in let '(x', y', z') := b in (x =? x') && (y =? y') && (z =? z').
Definition updc {B} (f : cell -> B) (c : cell) (b : B) : cell -> B := fun d => if cell_is d c then b else f d.

Definition waiting (t : transit A) : bool := match t with Waiting => true | _ => false end.
Definition done (t : transit A) : bool := match t with Done => true | _ => false end.

(** Elements of the messages of a process. *)
Definition box_cells (n : ivec) : list cell :=
  flat_map (fun x => flat_map (fun y => map (fun z => (x, y, z)) (zrange 0 (n 2))) (zrange 0 (n 1))) (zrange 0 (n 0)).
Definition every_element (r : Z) (f : Z -> Z -> cell -> bool) : bool :=
  forallb (fun v => forallb (fun s => negb (cuda_has_side (nb r) s) ||
    forallb (f v s) (box_cells (buffer_extents dims g E s))) (zrange 0 (2 * dims))) (zrange 0 nvars).
Definition is_element (r v s : Z) (c : cell) : bool :=
  (0 <=? r) && (r <? np) && (0 <=? v) && (v <? nvars) && (0 <=? s) && (s <? 2 * dims) && cuda_has_side (nb r) s
  && within (fun _ => 0) (buffer_extents dims g E s) c.

(** Has process [r] posted the operations of exchange [k]?  Has it finished it? *)
Definition posted (st : xstate) (r : Z) (k : nat) : bool :=
  Nat.ltb k (x_round st r) || (Nat.eqb k (x_round st r) && match x_stage st r with Posted | Reducing => true | _ => false end).
Definition finished (st : xstate) (r : Z) (k : nat) : bool :=
  Nat.ltb k (x_round st r) || (Nat.eqb k (x_round st r) && match x_stage st r with Reducing => true | _ => false end).

Inductive xevent : Type :=
| EExtract (r : Z)
| EPost (r : Z)
| ERead (k : nat) (a v s : Z) (c : cell)
| EWrite (k : nat) (a v s : Z) (c : cell)
| EInsert (r : Z) (last : Z -> cell -> Z)
| ELeave (r : Z).

Definition is_process (r : Z) : bool := (0 <=? r) && (r <? np).

(** The effect of an event, if it can happen.

    EExtract: lines 104 and 120; the send buffers are overwritten, whether or not
    the previous message has been sent.
    EPost: lines 116-137.
    ERead, EWrite: MPI reads an element of a send buffer at any time after the send
    was posted, and writes it to the buffer of the matching receive.  The send
    ([var * 6 + side] to [nb a side]) matches the receive with the same tag posted
    by the destination for side [opposite_side side] from [nb b (opposite_side
    side)]; exchanges are matched in order, MPI does not let messages overtake.
    EInsert: lines 140-142 and 257-290, when the messages for this process have
    arrived.  The previous send requests have been destroyed by the assignment in
    line 121, which waits until they are complete (Request.cpp lines 32-36); the
    wait is placed here, after all posts.  The current ones are not waited for
    (line 272).
    ELeave: MPI_Allreduce returns when every process has called it. *)
Definition exec (e : xevent) (st : xstate) : option xstate :=
  match e with
  | EExtract r =>
      let k := x_round st r in
      if is_process r && match x_stage st r with Begin => true | _ => false end then
        Some (mkx (x_round st) (upd (x_stage st) r Extracted)
          (upd (x_send st) r (fun v s => if cuda_has_side (nb r) s then extracted dims g E s (u k r v) else x_send st r v s))
          (x_recv st) (x_net st) (x_out st))
      else None
  | EPost r =>
      if is_process r && match x_stage st r with Extracted => true | _ => false end then
        Some (mkx (x_round st) (upd (x_stage st) r Posted) (x_send st) (x_recv st) (x_net st) (x_out st))
      else None
  | ERead k a v s c =>
      if is_element a v s c && posted st a k && waiting (x_net st k a v s c) then
        Some (mkx (x_round st) (x_stage st) (x_send st) (x_recv st)
          (updk (x_net st) k (upd (x_net st k) a (upd (x_net st k a) v (upd (x_net st k a v) s
             (updc (x_net st k a v s) c (Moving (x_send st a v s c))))))) (x_out st))
      else None
  | EWrite k a v s c =>
      let b := nb a s in let s' := opposite_side s in
      if is_element a v s c && is_process b && cuda_has_side (nb b) s' && (nb b s' =? a) && posted st b k then
        match x_net st k a v s c with
        | Moving x =>
            Some (mkx (x_round st) (x_stage st) (x_send st)
              (upd (x_recv st) b (upd (x_recv st b) v (upd (x_recv st b v) s' (updc (x_recv st b v s') c x))))
              (updk (x_net st) k (upd (x_net st k) a (upd (x_net st k a) v (upd (x_net st k a v) s
                 (updc (x_net st k a v s) c Done))))) (x_out st))
        | _ => None
        end
      else None
  | EInsert r last =>
      let k := x_round st r in
      if is_process r && match x_stage st r with Posted => true | _ => false end
         && every_element r (fun v s c => done (x_net st k (nb r s) v (opposite_side s) c))
         && match k with O => true | S k' => every_element r (fun v s c => negb (waiting (x_net st k' r v s c))) end then
        Some (mkx (if reduce k then x_round st else upd (x_round st) r (S k))
          (upd (x_stage st) r (if reduce k then Reducing else Begin)) (x_send st) (x_recv st) (x_net st)
          (updk (x_out st) k (upd (x_out st k) r (fun v =>
             inserted dims g E (nb r) (last v) (x_recv st r v) (u k r v)))))
      else None
  | ELeave r =>
      let k := x_round st r in
      if is_process r && match x_stage st r with Reducing => true | _ => false end
         && forallb (fun q => finished st q k) (zrange 0 np) then
        Some (mkx (upd (x_round st) r (S k)) (upd (x_stage st) r Begin) (x_send st) (x_recv st) (x_net st) (x_out st))
      else None
  end.

(** Buffers hold zeros at first (lines 382-383), whatever that is. *)
Definition xstart (zero : A) : xstate :=
  mkx (fun _ => O) (fun _ => Begin) (fun _ _ _ _ => zero) (fun _ _ _ _ => zero) (fun _ _ _ _ _ => Waiting)
      (fun _ _ _ _ => zero).
Fixpoint execs (es : list xevent) (st : xstate) : option xstate :=
  match es with
  | [] => Some st
  | e :: es' => match exec e st with Some st' => execs es' st' | None => None end
  end.
Definition happens (zero : A) (st : xstate) : Prop := exists es, execs es (xstart zero) = Some st.
End Run.

(** Every time step begins with a substep that computes the time step, after its
    exchange: performSubstep of the integrators in /repo/alsfvm/src/integrator
    (ForwardEuler.cpp lines 33-50, RungeKutta2.cpp lines 47-51, RungeKutta3.cpp
    lines 59-63, RungeKutta4.cpp lines 60-64), Integrator.cpp lines 20-40 and
    CellExchanger.cpp lines 21-23. *)
Definition reduces (it : integrator) (k : nat) : bool := Nat.eqb (Nat.modulo k (substeps it)) 0.
