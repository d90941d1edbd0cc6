(** What the texts of a run should be. *)
From Coq Require Import List Ascii String.
From Verif Require Import M_Base M_TextCache.
Import ListNotations.

(** [t] is the text that the file called [a] had when it was first read in the run: all
    earlier requests for it failed. *)
Definition first_text {file : Type} (resolve : name -> file) (rs : list (request (file := file))) (xs : list (res text))
    (i : nat) (a : name) (t : text) : Prop :=
  exists j r, j <= i /\ nth_error rs j = Some r /\ absolute (at_cwd r) (wanted r) = a /\
    at_files r (resolve a) = Some t /\ nth_error xs j = Some (Ok t) /\
    forall k q, k < j -> nth_error rs k = Some q -> absolute (at_cwd q) (wanted q) = a -> nth_error xs k = Some Throw.

(** [p] contains [s]. *)
Definition contains (s p : name) : Prop := exists a b, p = a ++ s ++ b.
(** A name that cannot be mistaken for another one in the report. *)
Definition plain_name (p : name) : Prop := ~ contains (nm "dash") p /\ ~ contains (nm "DOT") p.
