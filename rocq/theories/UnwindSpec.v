(** Specification vocabulary for unwinding: who owns a value, how often it is dropped. *)
From Coq Require Import ZArith List Permutation.
From Verif Require Import UnwindModel.
Import ListNotations.
Open Scope Z_scope.

(** How often the destructor of [v] has run. *)
Definition drops (v : Z) (l : list event) : nat :=
  List.length (filter (fun e => match e with EDrop w => v =? w | _ => false end) l).
(** How often block [b] has been freed. *)
Definition frees (b : Z) (l : list event) : nat :=
  List.length (filter (fun e => match e with EFree w => b =? w | _ => false end) l).

(** A run of a closure in safe Rust: it owns its argument and what it makes ([made]); in the end
    each of these is dropped, forgotten or returned. *)
Definition owns (made : list Z) (v : Z) (c : call) : Prop :=
  Permutation (v :: made) (c_drops c ++ c_forgets c ++ match c_result c with Some w => [w] | None => [] end).

(** A sequence of closures applied to a variable; all values made are different. *)
Inductive linear : Z -> list (Z -> call) -> list Z -> Prop :=
| li_nil v : linear v [] []
| li_return v f fs made w more : owns made v (f v) -> c_result (f v) = Some w -> linear w fs more ->
    linear v (f :: fs) (made ++ more)
| li_panic v f fs made : owns made v (f v) -> c_result (f v) = None -> linear v (f :: fs) made.
(** Some closure of the sequence panics; the place holds [v] then. *)
Inductive panics_at : Z -> list (Z -> call) -> Z -> call -> Prop :=
| pa_here v f fs : c_result (f v) = None -> panics_at v (f :: fs) v (f v)
| pa_later v f fs w x c : c_result (f v) = Some w -> panics_at w fs x c -> panics_at v (f :: fs) x c.
(** The values forgotten during the sequence. *)
Fixpoint all_forgets (v : Z) (fs : list (Z -> call)) : list Z :=
  match fs with
  | [] => []
  | f :: fs => c_forgets (f v) ++ match c_result (f v) with Some w => all_forgets w fs | None => [] end
  end.
