(** Model of what threads do to one block, as a sequence of memory events: the accesses to the
    counter (nanvm-lib/src/mem/block_header.rs 23-28), the uses of the object through a reference
    (mem/ref_.rs 24-30) and through a mutable reference (mem/mut_ref.rs 36-49), and the release of
    the block (mem/optional_ref.rs 61-69, mem/mut_ref.rs 28-33).  The counter is the atomic one;
    its states are those of ThreadModel.v. *)
From Coq Require Import ZArith List Bool.
From Verif Require Import ThreadModel.
Import ListNotations.
Open Scope nat_scope.

(** Orderings of an atomic access: what the code asks for, and the stronger one that would
    order the accesses of different threads. *)
Inductive ordering := Relaxed | AcqRel.
(** [Ordering::Relaxed], block_header.rs 26. *)
Definition counter_ordering : ordering := Relaxed.

(** What a thread does: an action of ThreadModel.v, reading the object ([Deref for Ref],
    [Deref for MutRef]) or writing it ([DerefMut for MutRef]). *)
Inductive op := Act (a : action) | Use | Write.

(** Memory events. *)
Inductive event :=
| EUpdate            (* read-modify-write of the counter *)
| EGive (to : nat)   (* hands a reference to another thread; what makes this possible
                        (a channel, a mutex, starting the thread) orders the two threads *)
| EUse               (* reads the object *)
| EWrite             (* writes the object *)
| EFree.             (* drops the object and releases the memory *)
Definition trace := list (nat * event).

(** One operation of the thread [i]: the new state and the events in order.  [None] is an access
    to a released block; what a thread cannot do is passed over. *)
Definition step (i : nat) (o : op) (w : world) : option (world * trace) :=
  match o with
  | Act a =>
    match act HAtomic i a w with
    | Fault => None
    | Skip => Some (w, [])
    | Next w' =>
      Some (w', match a with
                | Start _ => (i, EUpdate) :: (if w_released w' then [(i, EFree)] else [])
                | Give j => [(i, EGive j)]
                | DropMut => [(i, EFree)]
                | Finish | ToRef => []
                end)
    end
  | Use =>
    match nth_error (w_threads w) i with
    | Some t => if (0 <? t_refs t) || t_mut t then (if w_released w then None else Some (w, [(i, EUse)])) else Some (w, [])
    | None => Some (w, [])
    end
  | Write =>
    match nth_error (w_threads w) i with
    | Some t => if t_mut t then (if w_released w then None else Some (w, [(i, EWrite)])) else Some (w, [])
    | None => Some (w, [])
    end
  end.
Fixpoint run (s : list (nat * op)) (w : world) : option (world * trace) :=
  match s with
  | [] => Some (w, [])
  | (i, o) :: s =>
    match step i o w with
    | None => None
    | Some (w', evs) =>
      match run s w' with
      | None => None
      | Some (w'', evs') => Some (w'', evs ++ evs')
      end
    end
  end.
