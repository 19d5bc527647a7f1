(** Model of the layouts of blocks: nanvm-lib/src/mem/{field_layout,block,object,fixed,arena,
    local}.rs and mem/flexible_array/{mod,header,constructor}.rs.

    Addresses and [usize] are [Z] (64 bits); additions and multiplications of [usize] panic on
    overflow as in a debug build.  Types are given by their size and alignment. *)
From Coq Require Import ZArith List Bool.
From Verif Require Import Outcome BitsetModel.
Import ListNotations.
Open Scope Z_scope.

Definition usize_max : Z := 2 ^ 64 - 1.
Definition uadd (a b : Z) : outcome Z := if a + b <=? usize_max then Ok (a + b) else Panic.
Definition umul (a b : Z) : outcome Z := if a * b <=? usize_max then Ok (a * b) else Panic.
Definition usub (a b : Z) : outcome Z := if b <=? a then Ok (a - b) else Panic.

(** A type: [size_of] and [align_of]. *)
Record ty := { ty_size : Z; ty_align : Z }.
(** [core::alloc::Layout] *)
Record layout := { lay_size : Z; lay_align : Z }.

(** * field_layout.rs *)

(** [usize::is_power_of_two] *)
Definition is_power_of_two (a : Z) : bool := (0 <? a) && (2 ^ Z.log2 a =? a).
(** 15-18 *)
Definition align_to (i align : Z) : outcome Z :=
  let! mask := usub align 1 in
  let! s := uadd i mask in
  Ok (Z.land s (u64_not mask)).
(** [FieldLayout], 9-13: the alignment of the whole and the offset of the adjacent value. *)
Record field_layout := { fl_align : Z; fl_size : Z }.
(** [FieldLayout::<T, A>::align_to], 21-29; [max] is common/usize.rs *)
Definition field_align_to (t a : ty) (adjacent_align : Z) : outcome field_layout :=
  if negb (is_power_of_two adjacent_align) then Panic
  else if adjacent_align <? ty_align a then Panic
  else
    let! size := align_to (ty_size t) adjacent_align in
    Ok {| fl_align := if adjacent_align <? ty_align t then ty_align t else adjacent_align; fl_size := size |}.
(** [to_adjacent] and [into_adjacent_mut], 31-37, and [from_adjacent_mut], 40-42: pointer
    arithmetic modulo 2^64. *)
Definition to_adjacent (f : field_layout) (p : Z) : Z := (p + fl_size f) mod 2 ^ 64.
Definition from_adjacent (f : field_layout) (p : Z) : Z := (p - fl_size f) mod 2 ^ 64.
(** [layout], 44-46: unchecked, so an arithmetic overflow is the only panic. *)
Definition field_layout_layout (f : field_layout) (a_size : Z) : outcome layout :=
  let! s := uadd (fl_size f) a_size in Ok {| lay_size := s; lay_align := fl_align f |}.

(** * block.rs, 12-17: the layout of a block is its header followed by the object.
    [obj] is the type behind [T] and [object_align] is [T::OBJECT_ALIGN]. *)
Definition block_header_layout (header obj : ty) (object_align : Z) : outcome field_layout :=
  field_align_to header obj object_align.
Definition block_layout (header obj : ty) (object_align object_size : Z) : outcome layout :=
  let! f := block_header_layout header obj object_align in
  field_layout_layout f object_size.

(** * Headers of blocks: [Cell<isize>] (global.rs 12), [AtomicIsize] (local.rs 45) and
    [NoHeader] (arena.rs 28). *)
Definition isize_ty : ty := {| ty_size := 8; ty_align := 8 |}.
Definition no_header_ty : ty := {| ty_size := 0; ty_align := 1 |}.
Definition u8_ty : ty := {| ty_size := 1; ty_align := 1 |}.

(** * local.rs, 31-38: a pointer to the [Local] comes before each block. *)
Definition local_layout (b : layout) : outcome (field_layout * layout) :=
  let! h := field_align_to {| ty_size := 8; ty_align := 8 |} u8_ty (lay_align b) in
  let! l := field_layout_layout h (lay_size b) in
  Ok (h, l).

(** * flexible_array/mod.rs, 22, 42-52; the type is [#[repr(transparent)]], so it has the size
    and alignment of its header. *)
Definition flexible_header_layout (header item : ty) : outcome field_layout := field_align_to header item (ty_align item).
Definition flexible_size (header item : ty) (len : Z) : outcome Z :=
  let! f := flexible_header_layout header item in
  let! n := umul len (ty_size item) in
  uadd (fl_size f) n.
Definition flexible_align (header item : ty) : outcome Z :=
  let! f := flexible_header_layout header item in Ok (fl_align f).

(** * flexible_array/constructor.rs

    Memory at the granularity of values: what has been written where. *)
Inductive value_at (H I : Type) := VHeader (h : H) | VItem (i : I).
Arguments VHeader {H I}. Arguments VItem {H I}.
Definition memory (H I : Type) := list (Z * value_at H I).   (* latest write first *)
(** The value at an address. *)
Fixpoint peek {H I} (m : memory H I) (p : Z) : option (value_at H I) :=
  match m with
  | [] => None
  | (q, v) :: m => if q =? p then Some v else peek m p
  end.
(** 26-28: [src.next().unwrap()] for every slot. *)
Fixpoint write_items {H I} (item : ty) (p : Z) (slots : nat) (src : list I) (m : memory H I) : outcome (memory H I) :=
  match slots with
  | O => Ok m
  | S slots =>
    match src with
    | [] => Panic
    | x :: src => write_items item ((p + ty_size item) mod 2 ^ 64) slots src ((p, VItem x) :: m)
    end
  end.
(** [construct], 22-29: [len] is [FlexibleArrayHeader::len]. *)
Definition construct {H I} (hty item : ty) (len : H -> Z) (h : H) (items : list I) (p : Z) (m : memory H I) : outcome (memory H I) :=
  let! f := flexible_header_layout hty item in
  write_items item (to_adjacent f p) (Z.to_nat (len h)) items ((p, VHeader h) :: m).
(** [result_size], 19-21 *)
Definition result_size {H} (hty item : ty) (len : H -> Z) (h : H) : outcome Z := flexible_size hty item (len h).
(** [object_size], mod.rs 50-52: reads the header. *)
Definition object_size {H I} (hty item : ty) (len : H -> Z) (m : memory H I) (p : Z) : outcome Z :=
  match peek m p with
  | Some (VHeader h) => flexible_size hty item (len h)
  | _ => Panic
  end.
(** [items], mod.rs 24-31: the addresses of the slice and what is there. *)
Fixpoint slice {H I} (item : ty) (p : Z) (n : nat) (m : memory H I) : list (option (value_at H I)) :=
  match n with
  | O => []
  | S n => peek m p :: slice item ((p + ty_size item) mod 2 ^ 64) n m
  end.
Definition items {H I} (hty item : ty) (len : H -> Z) (m : memory H I) (p : Z) : outcome (list (option (value_at H I))) :=
  let! f := flexible_header_layout hty item in
  match peek m p with
  | Some (VHeader h) => Ok (slice item (to_adjacent f p) (Z.to_nat (len h)) m)
  | _ => Panic
  end.

(** * arena.rs *)

(** [Arena], 10-14: the first free byte and the end. *)
Record arena := { ar_start : Z; ar_end : Z }.
(** [alloc], 45-58.  [align_offset] of a byte pointer is the distance to the next multiple of
    the alignment; [byte_add] is modulo 2^64. *)
Definition align_offset (p align : Z) : Z := (- p) mod align.
Definition arena_alloc (a : arena) (l : layout) : outcome (Z * arena) :=
  let result := (ar_start a + align_offset (ar_start a) (lay_align l)) mod 2 ^ 64 in
  let start := (result + lay_size l) mod 2 ^ 64 in
  if ar_end a <? start then Panic else Ok (result, {| ar_start := start; ar_end := ar_end a |}).
(** A sequence of allocations. *)
Fixpoint arena_allocs (a : arena) (ls : list layout) : outcome (list Z * arena) :=
  match ls with
  | [] => Ok ([], a)
  | l :: ls =>
    let! (p, a') := arena_alloc a l in
    let! (ps, a'') := arena_allocs a' ls in
    Ok (p :: ps, a'')
  end.
