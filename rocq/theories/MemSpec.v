(** What reference counting is expected to guarantee. *)
From Coq Require Import ZArith List Bool.
From Verif Require Import Outcome BitsetModel LayoutModel MemModel.
Import ListNotations.
Open Scope Z_scope.

(** The bits of an [Any]: a reference has 14 ones at the top, and an address in the lower 48;
    16 ones are a bigint. *)
Definition any_block (v : Z) : option Z := if (v / 2 ^ 50) mod 2 ^ 14 =? 2 ^ 14 - 1 then Some (v mod 2 ^ 48) else None.
Definition any_bigint (v : Z) : bool := (v / 2 ^ 48) mod 2 ^ 16 =? 2 ^ 16 - 1.

(** The block that a place or handle refers to. *)
Definition cell_target (c : cell) : option Z := match c with CTyped _ a => Some a | CAny v => any_block v end.
Definition target (x : handle) : option Z := match x with HMut _ a => Some a | HRef c => cell_target c end.

(** All references to blocks in a program: its handles, those it has forgotten, and those in
    allocated blocks. *)
Definition references (st : state) : list handle :=
  st_handles st ++ st_lost st ++ flat_map (fun xb => map HRef (b_cells (snd xb))) (hp_blocks (st_heap st)).
Definition refers (a : Z) (x : handle) : bool := match target x with Some t => t =? a | None => false end.
Definition reference_count (a : Z) (st : state) : nat := length (filter (refers a) (references st)).

Definition allocated (a : Z) (st : state) : Prop := exists b, In (a, b) (hp_blocks (st_heap st)).
(** The block [a] holds a reference to the block [b]. *)
Definition holds (st : state) (a b : Z) : Prop := exists k c, In (a, k) (hp_blocks (st_heap st)) /\ In c (b_cells k) /\ cell_target c = Some b.
(** Reachable from the handles. *)
Inductive reachable (st : state) : Z -> Prop :=
| reach_handle x a : In x (st_handles st) -> target x = Some a -> reachable st a
| reach_block a b : reachable st a -> holds st a b -> reachable st b.

(** Histories of programs that do not write the length of a flexible array or the counter of a
    block. *)
Definition keeps_headers (o : op) : bool := match o with OSetLen _ _ | OSetCount _ _ _ => false | _ => true end.
(** ... that do not forget handles and have no interior mutability. *)
Definition plain_op (o : op) : bool := match o with OSetLen _ _ | OSetCount _ _ _ | OForget _ | OCell _ _ _ => false | _ => true end.
(** ... that do not put bigints into [Any]. *)
Definition no_any_bigint (st : state) : Prop := forall v, In (HRef (CAny v)) (references st) -> any_bigint v = false.

(** The block that an operation writes to. *)
Definition written (o : op) (st : state) : option Z :=
  match o with
  | OSet i _ _ | OCell i _ _ => match nth_error (st_handles st) i with Some x => target x | None => None end
  | _ => None
  end.
(** The operations that are allowed to panic: a size that does not fit into [usize], an index
    out of bounds; and, as a known defect, releasing bigints through an [Any]. *)
Definition out_of_bounds (i j : nat) (st : state) : Prop :=
  exists x a b, nth_error (st_handles st) i = Some x /\ target x = Some a /\ In (a, b) (hp_blocks (st_heap st)) /\ (length (b_cells b) <= j)%nat.
(** The number of bytes that the local manager allocates: its own pointer, the counter, the
    length of a string, object, array or bigint, and the items; a [Fixed<T>] moves both headers
    to its alignment. *)
Definition bytes (k : kind) (len : Z) : Z :=
  match k with
  | KString => 24 + 2 * len
  | KObject => 24 + 16 * len
  | KArray | KBigint => 24 + 8 * len
  | KFixed t => 2 * Z.max 8 (ty_align t) + ty_size t
  end.
(** The sizes and alignments that Rust types have. *)
Definition power_of_two (a : Z) : Prop := exists k, 0 <= k < 60 /\ a = 2 ^ k.
Definition rust_kind (k : kind) : Prop := match k with KFixed t => power_of_two (ty_align t) /\ 0 <= ty_size t | _ => True end.
Definition may_panic (o : op) (st : state) : Prop :=
  match o with
  | ONew k len _ _ => rust_kind k -> 2 ^ 64 <= bytes k len
  | OGet i j | OTryRefGet _ i j | OSet i j _ | OCell i j _ => out_of_bounds i j st
  | ODrop _ | OTryMove _ _ => ~ no_any_bigint st
  | _ => False
  end.
