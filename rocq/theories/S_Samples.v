(** Specification of the random input of a sample (C23, C24). *)
From Coq Require Import ZArith List Bool Reals.
From Verif Require Import M_Base M_Samples.
Import ListNotations.
Open Scope Z_scope.

Definition draws (p : parameter) : bool :=
  match pdist p with DUniform _ _ => true | DFunction _ => false end.

(** Component [i] of parameter [p] for sample [s] when [p] is the only
    parameter drawing from the sequence: element [s * length + i]. *)
Definition ideal_component (stream : Z -> R) (p : parameter) (s i : Z) (d : drawn) : Prop :=
  match pdist p with
  | DUniform lo hi =>
      dpos d = Some (s * plen p + i)
      /\ dval d = (lo + (hi - lo) * stream (s * plen p + i)%Z)%R
  | DFunction f => dpos d = None /\ f i s = Ok (dval d)
  end.

Definition ideal_parameter (stream : Z -> R) (s : Z) (p : parameter) (ds : list drawn) : Prop :=
  Z.of_nat (length ds) = Z.max 0 (plen p)
  /\ forall i d, 0 <= i -> nth_error ds (Z.to_nat i) = Some d -> ideal_component stream p s i d.

Definition ideal_sample (stream : Z -> R) (ps : list parameter) (s : Z)
    (v : list (list drawn)) : Prop :=
  Forall2 (ideal_parameter stream s) ps v.

(** The sample indices of a process, as SimpleLoadBalancer hands them out. *)
Fixpoint increasing (l : list Z) : Prop :=
  match l with
  | [] => True
  | s :: l' => 0 <= s /\ match l' with [] => True | s' :: _ => s < s' end /\ increasing l'
  end.

(** The index of every random number of the samples fits a [long]. *)
Definition fits_long (ps : list parameter) (l : list Z) : Prop :=
  forall p s, In p ps -> In s l -> draws p = true -> s * plen p < 2 ^ 63.

(** All elements of the random sequence used by a list of generated samples. *)
Definition positions (out : list (Z * list (list drawn))) : list Z :=
  flat_map (fun sv => flat_map (fun ds =>
    flat_map (fun d => match dpos d with Some k => [k] | None => [] end) ds) (snd sv)) out.
