(** What a user expects of references that several threads hold. *)
From Coq Require Import ZArith List Bool Lia.
From Verif Require Import ThreadModel.
Import ListNotations.
Open Scope nat_scope.

(** How many references and mutable references a thread and all threads hold. *)
Definition holds (t : thread) : nat := t_refs t + (if t_mut t then 1 else 0).
Definition owners (w : world) : nat := list_sum (map holds (w_threads w)).

(** Every reference is to a live block, and the block is released with the last one. *)
Definition precise (w : world) : Prop := w_released w = true <-> owners w = 0%nat.
(** A thread with a mutable reference is the only one with any. *)
Definition exclusive (w : world) : Prop :=
  forall t, In t (w_threads w) -> t_mut t = true -> owners w = 1%nat.

(** A schedule in which no other thread runs between the two halves of an update. *)
Definition undisturbed (s : list (nat * action)) : list (nat * action) :=
  flat_map (fun ia => match ia with (i, Start u) => [(i, Start u); (i, Finish)] | _ => [ia] end) s.
