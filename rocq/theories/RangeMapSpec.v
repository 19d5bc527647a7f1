(** Specification vocabulary for range maps. *)
From Coq Require Import ZArith List Bool Sorting.Sorted.
Import ListNotations.
Open Scope Z_scope.

(** Keys strictly increasing. *)
Definition rm_sorted {T} (m : list (Z * T)) : Prop := StronglySorted (fun x y => fst x < fst y) m.

(** [v] belongs to the first entry with key >= k; [None] after the last entry. *)
Definition rm_at {T} (m : list (Z * option T)) (k : Z) (v : option T) : Prop :=
  (exists pre key post, m = pre ++ (key, v) :: post /\ k <= key /\ Forall (fun e => fst e < k) pre) \/
  (v = None /\ Forall (fun e => fst e < k) m).

(** Both maps give a value to [k] and the values differ. *)
Definition rm_conflict {T} (a b : list (Z * option T)) (k : Z) : Prop :=
  exists x y, rm_at a k (Some x) /\ rm_at b k (Some y) /\ x <> y.

(** Unicode scalar values. *)
Definition scalar (c : Z) : Prop := 0 <= c < 0xD800 \/ 0xE000 <= c <= 0x10FFFF.
