(** The reference counter of one block as a machine integer.  The other memory models count
    without bound. *)
From Coq Require Import ZArith List Bool.
Import ListNotations.
Open Scope Z_scope.

(** The counters of mem/block_header.rs: [AtomicIsize] (lines 24-29), whose [fetch_add] wraps
    around, and [Cell<isize>] (lines 31-38), whose addition panics on overflow if overflow
    checks are on (debug builds) and wraps around otherwise (release builds). *)
Inductive counter_kind := Atomic | CellChecked | CellUnchecked.

(** Two's complement with 64 bits. *)
Definition wrap (z : Z) : Z := (z + 2 ^ 63) mod 2 ^ 64 - 2 ^ 63.
Definition fits (z : Z) : bool := (- 2 ^ 63 <=? z) && (z <? 2 ^ 63).

(** [ref_counter_update]: the new value, [None] for a panic. *)
Definition update (k : counter_kind) (c i : Z) : option Z :=
  match k with
  | CellChecked => if fits (c + i) then Some (c + i) else None
  | _ => Some (wrap (c + i))
  end.

(** What a program does with the references that it has to the block: copy one
    (mem/optional_ref.rs, Clone), forget one ([mem::forget]), drop one, read through one
    (mem/ref_.rs, Deref), write through one ([try_to_mut_ref] (mem/ref_.rs:12-21); if it gives
    a [MutRef], write and [to_ref]). *)
Inductive op := Clone | Forget | Drop | Use | Write.

(** The counter, the references that the program has, whether the block is deleted. *)
Record state := { counter : Z; refs : Z; deleted : bool }.
(** [MutRef::to_ref] after [Manager::new]. *)
Definition start : state := {| counter := 0; refs := 1; deleted := false |}.

(** [Fault]: deleted memory is used, or written while there are other references; [Panicked]: the operation panics. *)
Inductive outcome := Done (s : state) | Panicked (s : state) | Fault | Stuck.

Definition step (k : counter_kind) (o : op) (s : state) : outcome :=
  if refs s <=? 0 then Stuck
  else match o with
       | Forget => Done {| counter := counter s; refs := refs s - 1; deleted := deleted s |}
       | _ =>
         if deleted s then Fault
         else match o with
              | Clone => match update k (counter s) 1 with
                         | Some c => Done {| counter := c; refs := refs s + 1; deleted := false |}
                         | None => Panicked s
                         end
              | Drop => match update k (counter s) (-1) with
                        | Some c => Done {| counter := c; refs := refs s - 1; deleted := counter s =? 0 |}
                        | None => Panicked {| counter := counter s; refs := refs s - 1; deleted := false |}
                        end
              | Use => Done s
              | Write => if counter s =? 0 then if refs s =? 1 then Done s else Fault else Done s
              | Forget => Stuck
              end
       end.

(** A program that goes on after a panic (the panic was caught). *)
Fixpoint run (k : counter_kind) (os : list op) (s : state) : outcome :=
  match os with
  | [] => Done s
  | o :: os => match step k o s with
               | Done s' | Panicked s' => run k os s'
               | x => x
               end
  end.
