(** Model of reference counting: nanvm-lib/src/mem/{manager,block,block_header,mut_ref,ref_,
    optional_ref,optional_block,ref_counter_update,object,fixed,local,global}.rs,
    mem/flexible_array/mod.rs (the release of the items) and js/{any,any_internal,any_cast}.rs.

    One thread; counters are unbounded integers (a counter overflows after 2^63 clones that are
    forgotten).  A heap maps addresses to blocks; the addresses are chosen by the allocator
    among those not in use and below 2^48.  The numbers and code units in strings and bigints
    are not kept.  Unwinding after a panic is not modelled: a history ends there. *)
From Coq Require Import ZArith List Bool.
From Verif Require Import Outcome BitsetModel LayoutModel.
Import ListNotations.
Open Scope Z_scope.

(** Results of an operation.  [RFault] is undefined behaviour: an access to memory that is not
    allocated, or is allocated as another type, or a release with another size.  [RStuck] is an
    operation that the type checker rejects. *)
Inductive res (A : Type) := ROk (a : A) | RFault | RPanic | RNoFuel | RStuck.
Arguments ROk {A}. Arguments RFault {A}. Arguments RPanic {A}. Arguments RNoFuel {A}. Arguments RStuck {A}.
Definition rbind {A C} (x : res A) (f : A -> res C) : res C :=
  match x with ROk a => f a | RFault => RFault | RPanic => RPanic | RNoFuel => RNoFuel | RStuck => RStuck end.
Notation "'do!' x := e 'in' k" := (rbind e (fun x => k)) (at level 200, x pattern, e at level 100, k at level 200, right associativity).

(** * Blocks *)

(** The object types: [JsString], [JsObject], [JsArray], [JsBigint] and [Fixed<T>]. *)
Inductive kind := KString | KObject | KArray | KBigint | KFixed (t : ty).
Definition ty_eqb (a b : ty) : bool := (ty_size a =? ty_size b) && (ty_align a =? ty_align b).
Definition kind_eqb (a b : kind) : bool :=
  match a, b with
  | KString, KString | KObject, KObject | KArray, KArray | KBigint, KBigint => true
  | KFixed t, KFixed u => ty_eqb t u
  | _, _ => false
  end.

(** A place that can hold a reference: [Ref<T, D>] or the 64 bits of an [Any<D>]. *)
Inductive cell := CTyped (k : kind) (a : Z) | CAny (v : Z).

(** A block: the counter of its header, the length in the header of the object (0 for
    [Fixed]), the places in the object that can hold references, and the size of the
    allocation. *)
Record block := { b_kind : kind; b_count : Z; b_len : Z; b_cells : list cell; b_size : Z }.
(** The [Local] manager (local.rs 14-17) with its blocks. *)
Record heap := { hp_blocks : list (Z * block); hp_counter : Z; hp_size : Z }.

Fixpoint assoc (a : Z) (l : list (Z * block)) : option block :=
  match l with [] => None | (x, b) :: l => if x =? a then Some b else assoc a l end.
Definition find (a : Z) (h : heap) : option block := assoc a (hp_blocks h).
Fixpoint assoc_set (a : Z) (b : block) (l : list (Z * block)) : list (Z * block) :=
  match l with [] => [] | (x, c) :: l => if x =? a then (x, b) :: l else (x, c) :: assoc_set a b l end.
Definition store (a : Z) (b : block) (h : heap) : heap := {| hp_blocks := assoc_set a b (hp_blocks h); hp_counter := hp_counter h; hp_size := hp_size h |}.
Fixpoint assoc_remove (a : Z) (l : list (Z * block)) : list (Z * block) :=
  match l with [] => [] | (x, c) :: l => if x =? a then l else (x, c) :: assoc_remove a l end.

(** * Sizes *)

(** Header and item of the flexible arrays: js_string.rs 14, js_object.rs 17-19, js_array.rs
    14, js_bigint.rs 25-28 and 42.  A property is a reference and an [Any]. *)
Definition item_ty (k : kind) : ty :=
  match k with
  | KString => {| ty_size := 2; ty_align := 2 |}
  | KObject => {| ty_size := 16; ty_align := 8 |}
  | _ => {| ty_size := 8; ty_align := 8 |}
  end.
(** [object_size] and [OBJECT_ALIGN], object.rs 8-12, flexible_array/mod.rs 48-52. *)
Definition kind_size (k : kind) (len : Z) : outcome Z :=
  match k with KFixed t => Ok (ty_size t) | _ => flexible_size isize_ty (item_ty k) len end.
Definition kind_align (k : kind) : outcome Z :=
  match k with KFixed t => Ok (ty_align t) | _ => flexible_align isize_ty (item_ty k) end.
Definition kind_ty (k : kind) : ty := match k with KFixed t => t | _ => isize_ty end.
(** The size that [Local] asks from the global allocator: block.rs 15-17 and local.rs 34-38. *)
Definition alloc_size (k : kind) (len : Z) : outcome Z :=
  let! s := kind_size k len in
  let! a := kind_align k in
  let! b := block_layout isize_ty (kind_ty k) a s in
  let! (_, l) := local_layout b in
  Ok (lay_size l).
Definition of_outcome {A} (x : outcome A) : res A := match x with Ok a => ROk a | Panic => RPanic | NoFuel => RNoFuel end.

(** * Counters *)

(** The block header behind a place, and [ref_counter_update], optional_block.rs 13-18 and
    28-30, any_internal.rs 60-65, block_header.rs 23-37: adds [i] and returns the old value. *)
Definition cell_header (c : cell) : option Z :=
  match c with CTyped _ a => Some a | CAny v => block_header v end.
Definition with_count (b : block) (n : Z) : block :=
  {| b_kind := b_kind b; b_count := n; b_len := b_len b; b_cells := b_cells b; b_size := b_size b |}.
Definition counter_update (a i : Z) (h : heap) : res (Z * heap) :=
  match find a h with
  | None => RFault
  | Some b => ROk (b_count b, store a (with_count b (b_count b + i)) h)
  end.
(** The type with which [delete] releases the block: the type of the reference,
    optional_block.rs 32-34, or by the bits of the [Any], any_internal.rs 68-76. *)
Definition delete_kind (c : cell) : option kind :=
  match c with
  | CTyped k _ => Some k
  | CAny v =>
    let r := ref_type v in
    if r =? 0 then Some KString else if r =? 1 then Some KObject else if r =? 2 then Some KArray
    else None   (* unreachable!() *)
  end.

(** [dealloc], local.rs 47-56. *)
Definition dealloc (a size : Z) (h : heap) : res heap :=
  match find a h with
  | None => RFault
  | Some b =>
    if b_size b =? size then
      if hp_size h <? size then RPanic
      else ROk {| hp_blocks := assoc_remove a (hp_blocks h); hp_counter := hp_counter h - 1; hp_size := hp_size h - size |}
    else RFault
  end.

(** How many places an object of the kind with the length has. *)
Definition slots_match (b : block) : bool :=
  match b_kind b with
  | KArray => Z.of_nat (length (b_cells b)) =? b_len b
  | KObject => Z.of_nat (length (b_cells b)) =? 2 * b_len b
  | _ => true
  end.

(** Dropping the items in order. *)
Fixpoint drop_list (dc : cell -> heap -> res heap) (cs : list cell) (h : heap) : res heap :=
  match cs with
  | [] => ROk h
  | c :: cs => do! h := dc c h in drop_list dc cs h
  end.
(** [Block::delete], block.rs 18-23, with [object_drop], object.rs 14-16 and
    flexible_array/mod.rs 53-56.  With a length other than the real one the slice of the items
    reaches outside of the block or leaves items out. *)
Definition delete (dc : cell -> heap -> res heap) (k : kind) (a : Z) (h : heap) : res heap :=
  match find a h with
  | None => RFault
  | Some b =>
    if kind_eqb (b_kind b) k then
      do! size := of_outcome (alloc_size k (b_len b)) in
      if slots_match b then
        do! h := drop_list dc (b_cells b) h in
        dealloc a size h
      else RFault
    else RFault
  end.
(** [Drop for OptionalRef], optional_ref.rs 61-69. *)
Fixpoint drop_cell (fuel : nat) (c : cell) (h : heap) : res heap :=
  match fuel with
  | O => RNoFuel
  | S fuel =>
    match cell_header c with
    | None => ROk h
    | Some a =>
      do! (old, h) := counter_update a (-1) h in
      if old =? 0 then
        match delete_kind c with
        | None => RPanic
        | Some k => delete (drop_cell fuel) k a h
        end
      else ROk h
    end
  end.
(** [Clone for OptionalRef], optional_ref.rs 53-59. *)
Definition clone_cell (c : cell) (h : heap) : res heap :=
  match cell_header c with
  | None => ROk h
  | Some a => do! (_, h) := counter_update a 1 h in ROk h
  end.

(** * Programs *)

(** What a program holds: a [MutRef], or a [Ref] or [Any]. *)
Inductive handle := HMut (k : kind) (a : Z) | HRef (c : cell).
(** [Drop for MutRef], mut_ref.rs 28-33. *)
Definition drop_handle (fuel : nat) (x : handle) (h : heap) : res heap :=
  match x with HMut k a => delete (drop_cell fuel) k a h | HRef c => drop_cell fuel c h end.

(** The places that a new object of the kind and length can be built from. *)
Fixpoint properties_ok (cs : list cell) : bool :=
  match cs with [] => true | CTyped KString _ :: CAny _ :: cs => properties_ok cs | _ => false end.
Definition cells_ok (k : kind) (len : Z) (cs : list cell) : bool :=
  match k with
  | KString | KBigint => match cs with [] => 0 <=? len | _ => false end
  | KArray => forallb (fun c => match c with CAny _ => true | _ => false end) cs && (Z.of_nat (length cs) =? len)
  | KObject => properties_ok cs && (Z.of_nat (length cs) =? 2 * len)
  | KFixed t => (len =? 0) && (8 * Z.of_nat (length cs) <=? ty_size t)
  end.

(** The state of a program: the heap, the handles in its variables, and those that were passed
    to [mem::forget]. *)
Record state := { st_heap : heap; st_handles : list handle; st_lost : list handle }.
Definition init : state := {| st_heap := {| hp_blocks := []; hp_counter := 0; hp_size := 0 |}; st_handles := []; st_lost := [] |}.

(** Taking the [i]-th handle out. *)
Fixpoint pull {A} (i : nat) (l : list A) : option (A * list A) :=
  match i, l with
  | O, x :: l => Some (x, l)
  | S i, x :: l => match pull i l with Some (y, l) => Some (y, x :: l) | None => None end
  | _, [] => None
  end.
(** Taking several references out. *)
Fixpoint pull_cells (is : list nat) (l : list handle) : option (list cell * list handle) :=
  match is with
  | [] => Some ([], l)
  | i :: is =>
    match pull i l with
    | Some (HRef c, l) => match pull_cells is l with Some (cs, l) => Some (c :: cs, l) | None => None end
    | _ => None
    end
  end.
Fixpoint set_nth {A} (i : nat) (x : A) (l : list A) : list A :=
  match i, l with
  | O, _ :: l => x :: l
  | S i, y :: l => y :: set_nth i x l
  | _, [] => []
  end.

(** The kinds that an [Any] can hold, and the bits: any_cast.rs 43-45. *)
Definition any_bits (k : kind) (a : Z) : option Z :=
  match k with
  | KString => Some (move_to_any (BString a)) | KObject => Some (move_to_any (BObject a))
  | KArray => Some (move_to_any (BArray a)) | KBigint => Some (move_to_any (BBigint a))
  | KFixed _ => None
  end.
Definition kind_type (k : kind) : option jtype :=
  match k with KString => Some JString | KObject => Some JObject | KArray => Some JArray | KBigint => Some JBigint | KFixed _ => None end.

(** The address in the bits: any_cast.rs 47-49. *)
Definition raw_address (t : jtype) (v : Z) : Z :=
  match subset_of t with Some s => subset_value_to_raw_value s v | None => 0 end.

(** One operation of a safe program; the numbers are positions in the list of handles, and new
    handles go to the front. *)
Inductive op :=
| ONew (k : kind) (len : Z) (is : list nat) (a : Z)  (* [Manager::new], at the address [a] *)
| OPlain (v : Z)                                     (* an [Any] with no reference *)
| OToRef (i : nat)                                   (* [MutRef::to_ref] *)
| OTryToMut (i : nat)                                (* [Ref::try_to_mut_ref] *)
| OClone (i : nat)
| ODrop (i : nat)
| OForget (i : nat)                                  (* [mem::forget] *)
| OToAny (i : nat)                                   (* [move_to_any] of a [Ref] *)
| OTryMove (k : kind) (i : nat)                      (* [Any::try_move] *)
| OGet (i j : nat)                                   (* clone the [j]-th place of a block, through a [MutRef] or [Ref] *)
| OTryRefGet (k : kind) (i j : nat)                  (* the same through [Any::try_ref] *)
| OSet (i j n : nat)                                 (* [mem::replace] the [j]-th place through the [MutRef] [i], with the handle [n] of the rest *)
| OCell (i j n : nat)                                (* the same through a [Ref] to a [Fixed<T>] where [T] has a [Cell] *)
| OSetLen (i : nat) (len : Z)                        (* [r.header = len] through a [MutRef] to a string, object or array *)
| OSetCount (k : kind) (i : nat) (n : Z).            (* [any.try_ref()?.header.set(n)] or [.store(n, _)]: the header of a block is public, block.rs 7 *)

Definition with_cells (b : block) (cs : list cell) : block :=
  {| b_kind := b_kind b; b_count := b_count b; b_len := b_len b; b_cells := cs; b_size := b_size b |}.
Definition with_len (b : block) (n : Z) : block :=
  {| b_kind := b_kind b; b_count := b_count b; b_len := n; b_cells := b_cells b; b_size := b_size b |}.

(** Reading the [j]-th place: the index is checked against the length. *)
Definition slots (b : block) : Z :=
  match b_kind b with KArray => b_len b | KObject => 2 * b_len b | KFixed _ => Z.of_nat (length (b_cells b)) | _ => 0 end.
Definition read_cell (k : kind) (a : Z) (j : nat) (h : heap) : res cell :=
  match find a h with
  | None => RFault
  | Some b =>
    if negb (kind_eqb (b_kind b) k) then RFault
    else if slots b <=? Z.of_nat j then RPanic
    else match nth_error (b_cells b) j with Some c => ROk c | None => RFault end
  end.
Definition get_cell (k : kind) (a : Z) (j : nat) (st : state) : res state :=
  do! c := read_cell k a j (st_heap st) in
  do! h := clone_cell c (st_heap st) in
  ROk {| st_heap := h; st_handles := HRef c :: st_handles st; st_lost := st_lost st |}.
Definition swap_cell (k : kind) (a : Z) (j : nat) (c : cell) (keep : list handle) (st : state) : res state :=
  do! old := read_cell k a j (st_heap st) in
  match find a (st_heap st) with
  | None => RFault
  | Some b =>
    let cs := set_nth j c (b_cells b) in
    if cells_ok k (b_len b) cs then
      ROk {| st_heap := store a (with_cells b cs) (st_heap st); st_handles := HRef old :: keep; st_lost := st_lost st |}
    else RStuck
  end.

(** [try_to_mut_ref], ref_.rs 12-21, given the old value of the counter. *)
Definition try_to_mut (old : Z) (k : kind) (a : Z) : handle := if old =? 0 then HMut k a else HRef (CTyped k a).

Definition step (fuel : nat) (o : op) (st : state) : res state :=
  match o with
  | ONew k len is a =>
    match pull_cells is (st_handles st) with
    | None => RStuck
    | Some (cs, rest) =>
      if negb (cells_ok k len cs) then RStuck else
      do! size := of_outcome (alloc_size k len) in
      (* the global allocator *)
      if (0 <=? a) && (a <? 2 ^ 48) && match find a (st_heap st) with None => true | Some _ => false end then
        ROk {| st_heap := {| hp_blocks := (a, {| b_kind := k; b_count := 0; b_len := len; b_cells := cs; b_size := size |}) :: hp_blocks (st_heap st);
                             hp_counter := hp_counter (st_heap st) + 1; hp_size := hp_size (st_heap st) + size |};
               st_handles := HMut k a :: rest; st_lost := st_lost st |}
      else RStuck
    end
  | OPlain v =>
    if (0 <=? v) && (v <? 2 ^ 64) && negb (is_ref v) then ROk {| st_heap := st_heap st; st_handles := HRef (CAny v) :: st_handles st; st_lost := st_lost st |}
    else RStuck
  | OToRef i =>
    match pull i (st_handles st) with
    | Some (HMut k a, rest) => ROk {| st_heap := st_heap st; st_handles := HRef (CTyped k a) :: rest; st_lost := st_lost st |}
    | _ => RStuck
    end
  | OTryToMut i =>
    match pull i (st_handles st) with
    | Some (HRef (CTyped k a), rest) =>
      do! (old, h) := counter_update a 0 (st_heap st) in
      ROk {| st_heap := h; st_handles := try_to_mut old k a :: rest; st_lost := st_lost st |}
    | _ => RStuck
    end
  | OClone i =>
    match nth_error (st_handles st) i with
    | Some (HRef c) =>
      do! h := clone_cell c (st_heap st) in
      ROk {| st_heap := h; st_handles := HRef c :: st_handles st; st_lost := st_lost st |}
    | _ => RStuck
    end
  | ODrop i =>
    match pull i (st_handles st) with
    | Some (x, rest) =>
      do! h := drop_handle fuel x (st_heap st) in
      ROk {| st_heap := h; st_handles := rest; st_lost := st_lost st |}
    | None => RStuck
    end
  | OForget i =>
    match pull i (st_handles st) with
    | Some (x, rest) => ROk {| st_heap := st_heap st; st_handles := rest; st_lost := x :: st_lost st |}
    | None => RStuck
    end
  | OToAny i =>
    match pull i (st_handles st) with
    | Some (HRef (CTyped k a), rest) =>
      match any_bits k a with
      | Some v => ROk {| st_heap := st_heap st; st_handles := HRef (CAny v) :: rest; st_lost := st_lost st |}
      | None => RStuck
      end
    | _ => RStuck
    end
  | OTryMove k i =>
    match pull i (st_handles st), kind_type k with
    | Some (HRef (CAny v), rest), Some t =>
      if is_type t v then
        ROk {| st_heap := st_heap st; st_handles := HRef (CTyped k (raw_address t v)) :: rest; st_lost := st_lost st |}
      else (* [self] is dropped *)
        do! h := drop_cell fuel (CAny v) (st_heap st) in
        ROk {| st_heap := h; st_handles := rest; st_lost := st_lost st |}
    | _, _ => RStuck
    end
  | OGet i j =>
    match nth_error (st_handles st) i with
    | Some (HMut k a) | Some (HRef (CTyped k a)) => get_cell k a j st
    | _ => RStuck
    end
  | OTryRefGet k i j =>
    match nth_error (st_handles st) i, kind_type k with
    | Some (HRef (CAny v)), Some t =>
      match try_ref t v with
      | Some a => get_cell k a j st
      | None => ROk st
      end
    | _, _ => RStuck
    end
  | OSet i j n =>
    match pull i (st_handles st) with
    | Some (HMut k a, rest) =>
      match pull n rest with
      | Some (HRef c, rest) => swap_cell k a j c (HMut k a :: rest) st
      | _ => RStuck
      end
    | _ => RStuck
    end
  | OCell i j n =>
    match pull i (st_handles st) with
    | Some (HRef (CTyped (KFixed t) a), rest) =>
      match pull n rest with
      | Some (HRef c, rest) => swap_cell (KFixed t) a j c (HRef (CTyped (KFixed t) a) :: rest) st
      | _ => RStuck
      end
    | _ => RStuck
    end
  | OSetLen i n =>
    match nth_error (st_handles st) i with
    | Some (HMut k a) =>
      match k with
      | KString | KObject | KArray =>
        match find a (st_heap st) with
        | None => RFault
        | Some b => ROk {| st_heap := store a (with_len b n) (st_heap st); st_handles := st_handles st; st_lost := st_lost st |}
        end
      | _ => RStuck
      end
    | _ => RStuck
    end
  | OSetCount k i n =>
    match nth_error (st_handles st) i, kind_type k with
    | Some (HRef (CAny v)), Some t =>
      match try_ref t v with
      | Some a =>
        match find a (st_heap st) with
        | None => RFault
        | Some b => ROk {| st_heap := store a (with_count b n) (st_heap st); st_handles := st_handles st; st_lost := st_lost st |}
        end
      | None => ROk st
      end
    | _, _ => RStuck
    end
  end.

(** A history. *)
Fixpoint run (fuel : nat) (os : list op) (st : state) : res state :=
  match os with
  | [] => ROk st
  | o :: os => do! st := step fuel o st in run fuel os st
  end.

(** * The arena: [NoHeader], arena.rs 30-35, answers 1 to every update, so that no reference
    releases anything, and [dealloc] (40) does nothing.  Only the handles of a program matter. *)
Definition arena_counter_update (i : Z) : Z := 1.
Definition arena_step (o : op) (hs : list handle) : option (list handle) :=
  match o with
  | ONew k _ is a => match pull_cells is hs with Some (_, hs) => Some (HMut k a :: hs) | None => None end
  | OToRef i => match pull i hs with Some (HMut k a, hs) => Some (HRef (CTyped k a) :: hs) | _ => None end
  | OTryToMut i => match pull i hs with Some (HRef (CTyped k a), hs) => Some (try_to_mut (arena_counter_update 0) k a :: hs) | _ => None end
  | OClone i => match nth_error hs i with Some (HRef c) => Some (HRef c :: hs) | _ => None end
  | ODrop i => match pull i hs with Some (_, hs) => Some hs | None => None end
  | _ => None
  end.
Fixpoint arena_run (os : list op) (hs : list handle) : option (list handle) :=
  match os with
  | [] => Some hs
  | o :: os => match arena_step o hs with Some hs => arena_run os hs | None => None end
  end.
