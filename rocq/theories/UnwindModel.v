(** Panics that unwind: what is dropped, freed and forgotten.  Values are numbered; a value is
    whatever has a destructor (an item, a header, the target of [modify]). *)
From Coq Require Import ZArith List Bool.
Import ListNotations.
Open Scope Z_scope.

(** What happens, in order: the destructor of a value runs; a block is allocated; a block is
    freed. *)
Inductive event := EDrop (v : Z) | EAlloc (b : Z) | EFree (b : Z).

(** How a piece of code ends: normally, with a panic that unwinds, or with a panic during
    unwinding, which aborts the process. *)
Inductive ending (A : Type) := Ret (a : A) | Unwind | Abort.
Arguments Ret {A} a. Arguments Unwind {A}. Arguments Abort {A}.

(** * RefMut::modify (common/ref_mut.rs:6-15) *)

(** One run of the closure: the values that it drops (on a panic those that unwinding drops
    included), the values that it forgets, and the value that it returns, if it does. *)
Record call := { c_drops : list Z; c_forgets : list Z; c_result : option Z }.

(** [p.write(f(p.read()))]: the value is copied out of the place, the result is written
    over it without dropping what is there; after a panic the place is unchanged.  Returns the
    content of the place and whether the caller unwinds. *)
Definition modify (place : Z) (f : Z -> call) : list event * Z * ending unit :=
  let c := f place in
  let log := map EDrop (c_drops c) in
  match c_result c with
  | Some w => (log, w, Ret tt)
  | None => (log, place, Unwind)
  end.
(** A variable, some calls of [modify] on it until one unwinds, then the end of its scope,
    which drops its content. *)
Fixpoint owner (place : Z) (fs : list (Z -> call)) : list event :=
  match fs with
  | [] => [EDrop place]
  | f :: fs => match modify place f with
               | (log, place', Ret _) => log ++ owner place' fs
               | (log, place', _) => log ++ [EDrop place']
               end
  end.

(** * Blocks *)
Section Panics.
(** Which destructors panic (after their effect). *)
Variable panics : Z -> bool.

Definition drop_value (v : Z) : list event * ending unit := ([EDrop v], if panics v then Unwind else Ret tt).

(** [drop_in_place] of a slice: after the destructor of an item has panicked the other items
    are dropped all the same; a second panic aborts. *)
Fixpoint drop_slice (unwinding : bool) (vs : list Z) : list event * ending unit :=
  match vs with
  | [] => ([], if unwinding then Unwind else Ret tt)
  | v :: vs => if panics v then
                 if unwinding then ([EDrop v], Abort)
                 else let (l, e) := drop_slice true vs in (EDrop v :: l, e)
               else let (l, e) := drop_slice unwinding vs in (EDrop v :: l, e)
  end.

(** [FlexibleArray::object_drop] (mem/flexible_array/mod.rs:53-56): the items, then the header. *)
Definition object_drop (header : Z) (items : list Z) : list event * ending unit :=
  match drop_slice false items with
  | (l, Ret _) => let (l', e) := drop_value header in (l ++ l', e)
  | r => r
  end.
(** [Block::delete] (mem/block.rs:19-24). *)
Definition delete (b header : Z) (items : list Z) : list event * ending unit :=
  match object_drop header items with
  | (l, Ret _) => (l ++ [EFree b], Ret tt)
  | r => r
  end.

(** What an iterator does on one call of [next]: it gives a value or panics; the end of the
    list: it gives [None]. *)
Inductive next := Item (v : Z) | Boom.
(** The values that an iterator still owns. *)
Definition owned (src : list next) : list Z := flat_map (fun x => match x with Item v => [v] | Boom => [] end) src.

(** The loop of [construct] (mem/flexible_array/constructor.rs:24-31): [len] slots to fill;
    returns the items written, the rest of the iterator and whether it unwinds (a panic of
    [next], or of [unwrap] at the end of the iterator). *)
Fixpoint fill (len : nat) (src : list next) : list Z * list next * bool :=
  match len with
  | O => ([], src, false)
  | S len => match src with
             | Item v :: src => let '(w, rest, u) := fill len src in (v :: w, rest, u)
             | Boom :: src => ([], src, true)
             | [] => ([], [], true)
             end
  end.
(** [Manager::new] (mem/manager.rs:25-41) of a flexible array: allocation, the header, the
    items, then the iterator is dropped; only after that there is a [MutRef] that would drop the
    block.  Returns the items of the block. *)
Definition new (b : Z) (len : nat) (src : list next) : list event * ending (list Z) :=
  let '(written, rest, u) := fill len src in
  let (l, e) := drop_slice u (owned rest) in
  (EAlloc b :: l, match e with Ret _ => Ret written | Unwind => Unwind | Abort => Abort end).

(** A block and the end of the scope of its [MutRef] (mem/mut_ref.rs:31-36); [header]
    is the header value. *)
Definition life (b header : Z) (len : nat) (src : list next) : list event * ending unit :=
  match new b len src with
  | (l, Ret items) => let (l', e) := delete b header items in (l ++ l', e)
  | (l, Unwind) => (l, Unwind)
  | (l, Abort) => (l, Abort)
  end.
End Panics.
