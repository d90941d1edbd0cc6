(** What a queue between two threads is for. *)
From Coq Require Import List.
Import ListNotations.

(** Delivered so far: a first part of what was written, in order and unmodified. *)
Definition in_order {A} (written delivered : list A) : Prop := exists rest, written = delivered ++ rest.
