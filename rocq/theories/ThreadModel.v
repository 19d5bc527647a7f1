(** Model of the reference counter under several threads: nanvm-lib/src/mem/block_header.rs
    23-37 ([ref_counter_update] on [AtomicIsize] and on [Cell<isize>]), mem/optional_ref.rs
    53-69 ([Clone] and [Drop]) and mem/ref_.rs 12-21 ([try_to_mut_ref]).

    One block; the threads interleave at every access to the counter (sequentially consistent;
    the orderings of the accesses to the object itself are not modelled).  Counters are
    unbounded.  Which types may cross threads is the rule of the language for [Send] and
    [Sync], written out below. *)
From Coq Require Import ZArith List Bool.
Import ListNotations.
Open Scope Z_scope.

(** * Auto traits *)

(** The Rust types that occur in references. *)
Inductive rtype :=
| TInteger                       (* [u64], [isize], [usize] *)
| TAtomic                        (* [AtomicIsize] *)
| TRawPointer                    (* [*const T], [*mut T] *)
| TCell (t : rtype)              (* [core::cell::Cell] *)
| TShared (t : rtype)            (* [&T] *)
| TPhantom (t : rtype)           (* [PhantomData<T>] *)
| TStruct (fields : list rtype).
(** [Send] and [Sync] as the language derives them: a raw pointer has neither, [Cell<T>] is not
    [Sync], [&T] is [Send] iff [T] is [Sync], a structure has what its fields have. *)
Fixpoint sync (t : rtype) : bool :=
  match t with
  | TInteger | TAtomic => true
  | TRawPointer | TCell _ => false
  | TShared t | TPhantom t => sync t
  | TStruct l => forallb sync l
  end.
Fixpoint send (t : rtype) : bool :=
  match t with
  | TInteger | TAtomic => true
  | TRawPointer => false
  | TCell t | TPhantom t => send t
  | TShared t => sync t
  | TStruct l => forallb send l
  end.
(** [Global], global.rs 7: no fields. *)
Definition global_ty : rtype := TStruct [].
(** [Local], local.rs 14-17. *)
Definition local_ty : rtype := TStruct [TCell TInteger; TCell TInteger].
(** [Ref<T, D>], ref_.rs 9, is an [OptionalRef] (optional_ref.rs 10-14) of a pointer. *)
Definition ref_ty : rtype := TStruct [TRawPointer].
(** [Any<D>], any.rs 16, is an [OptionalRef] of an [AnyInternal], any_internal.rs 20-22. *)
Definition any_ty (d : rtype) : rtype := TStruct [TStruct [TInteger; TPhantom d]].
(** [Dealloc::BlockHeader]: global.rs 12 and local.rs 45. *)
Inductive header := HCell | HAtomic.
(** The managers that a program can use for its values: [Global] and [&Local]. *)
Inductive manager := MGlobal | MLocal.
Definition dealloc_ty (m : manager) : rtype := match m with MGlobal => global_ty | MLocal => TShared local_ty end.
Definition header_of (m : manager) : header := match m with MGlobal => HCell | MLocal => HAtomic end.

(** * Threads *)

(** [RefCounterUpdate], ref_counter_update.rs: the update asked for by [clone], [drop] and
    [try_to_mut_ref]. *)
Inductive update := AddRef | Release | Read.
Definition amount (u : update) : Z := match u with AddRef => 1 | Release => -1 | Read => 0 end.

(** What a thread does: nothing, or it is between the [get] and the [set] of [Cell<isize>]
    (block_header.rs 33-34) with the value it got. *)
Inductive pending := Idle | Updating (u : update) (got : Z).
(** A thread holds references, and may own the block mutably. *)
Record thread := { t_refs : nat; t_mut : bool; t_pending : pending }.
(** The counter, whether the block was released, the threads. *)
Record world := { w_count : Z; w_released : bool; w_threads : list thread }.

(** A thread starts an update, or goes on with one; or it gives a reference to another thread
    ([Send]). *)
Inductive action := Start (u : update) | Finish | Give (to : nat)
| DropMut      (* [Drop for MutRef], mut_ref.rs 28-33 *)
| ToRef.       (* [MutRef::to_ref], mut_ref.rs 20-24 *)

(** Outcome: [Fault] is an access to a released block; [Skip]: the thread cannot do this. *)
Inductive result := Next (w : world) | Fault | Skip.

Fixpoint set_thread (i : nat) (t : thread) (l : list thread) : list thread :=
  match i, l with
  | O, _ :: l => t :: l
  | S i, x :: l => x :: set_thread i t l
  | _, [] => []
  end.
Definition with_thread (w : world) (count : Z) (released : bool) (i : nat) (t : thread) : world :=
  {| w_count := count; w_released := released; w_threads := set_thread i t (w_threads w) |}.

(** After the update: [clone] returns a new reference, optional_ref.rs 56-57; [drop] releases
    the block if the old value was 0, 63-66; [try_to_mut_ref] turns the reference into a mutable
    one if it was 0, ref_.rs 14-19. *)
Definition complete (w : world) (i : nat) (t : thread) (u : update) (old : Z) : result :=
  let count := old + amount u in
  let keep n m := {| t_refs := n; t_mut := m; t_pending := Idle |} in
  match u with
  | AddRef => Next (with_thread w count (w_released w) i (keep (S (t_refs t)) (t_mut t)))
  | Release =>
    if old =? 0 then
      if w_released w then Fault
      else Next (with_thread w count true i (keep (pred (t_refs t)) (t_mut t)))
    else Next (with_thread w count (w_released w) i (keep (pred (t_refs t)) (t_mut t)))
  | Read =>
    if old =? 0 then Next (with_thread w count (w_released w) i (keep (pred (t_refs t)) true))
    else Next (with_thread w count (w_released w) i t)
  end.

(** One access to the counter by the thread [i]. *)
Definition act (h : header) (i : nat) (a : action) (w : world) : result :=
  match nth_error (w_threads w) i with
  | None => Skip
  | Some t =>
    match a, t_pending t with
    | Start u, Idle =>
      match t_refs t with
      | O => Skip
      | S _ =>
        if w_released w then Fault else
        match h with
        | HAtomic => complete w i t u (w_count w)                                  (* fetch_add, 26 *)
        | HCell => Next (with_thread w (w_count w) (w_released w) i                 (* get, 33 *)
                          {| t_refs := t_refs t; t_mut := t_mut t; t_pending := Updating u (w_count w) |})
        end
      end
    | Finish, Updating u got =>
      if w_released w then Fault
      else complete w i {| t_refs := t_refs t; t_mut := t_mut t; t_pending := Idle |} u got   (* set, 34 *)
    | Give j, Idle =>
      match t_refs t, nth_error (w_threads w) j with
      | S n, Some _ =>
        let w' := with_thread w (w_count w) (w_released w) i {| t_refs := n; t_mut := t_mut t; t_pending := Idle |} in
        match nth_error (w_threads w') j with
        | Some t' => Next (with_thread w' (w_count w) (w_released w) j {| t_refs := S (t_refs t'); t_mut := t_mut t'; t_pending := t_pending t' |})
        | None => Skip
        end
      | _, _ => Skip
      end
    | DropMut, Idle =>
      if t_mut t then
        if w_released w then Fault
        else Next (with_thread w (w_count w) true i {| t_refs := t_refs t; t_mut := false; t_pending := Idle |})
      else Skip
    | ToRef, Idle =>
      if t_mut t then Next (with_thread w (w_count w) (w_released w) i {| t_refs := S (t_refs t); t_mut := false; t_pending := Idle |})
      else Skip
    | _, _ => Skip
    end
  end.

(** A schedule: which thread does what.  What a thread cannot do is passed over. *)
Fixpoint schedule (h : header) (s : list (nat * action)) (w : world) : option world :=
  match s with
  | [] => Some w
  | (i, a) :: s =>
    match act h i a w with
    | Next w => schedule h s w
    | Skip => schedule h s w
    | Fault => None
    end
  end.

(** The threads at the beginning: each with some references, made by one another; the counter
    is their number less one. *)
Definition start (refs : list nat) : world :=
  {| w_count := Z.of_nat (list_sum refs) - 1; w_released := false;
     w_threads := map (fun n => {| t_refs := n; t_mut := false; t_pending := Idle |}) refs |}.
