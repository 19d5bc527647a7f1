(** Model of nanvm-lib/src/common/{bit_subset64,cast}.rs and nanvm-lib/src/js/{bitset,any,
    any_cast,any_internal,number,null,bool,visitor,type_}.rs: the bit patterns of [Any].

    A [u64] is a [Z] in [0, 2^64); pointers are [Z] (the target has 64-bit addresses);
    an [f64] is its bit pattern.  Reference counters and the blocks behind the pointers are in
    MemModel.v. *)
From Coq Require Import ZArith List Bool.
From Verif Require Import Outcome.
Import ListNotations.
Open Scope Z_scope.

(** * bit_subset64.rs *)

(** [!x] *)
Definition u64_not (x : Z) : Z := Z.lxor x (2 ^ 64 - 1).

(** [BitSubset64], 25-37. *)
Record subset := { bs_tag : Z; bs_mask : Z }.

(** [from_tag_and_mask], 70-77: [assert!]. *)
Definition from_tag_and_mask (tag mask : Z) : outcome subset :=
  if Z.land mask tag =? tag then Ok {| bs_tag := tag; bs_mask := mask |} else Panic.
(** 79-81 *)
Definition from_tag_and_superposition (tag sup : Z) : outcome subset := from_tag_and_mask tag (u64_not sup).
(** 83-85 *)
Definition from_tag_and_union (tag union : Z) : outcome subset := from_tag_and_superposition tag (Z.lxor tag union).
(** 87-89 *)
Definition from_tag (tag : Z) : outcome subset := from_tag_and_mask tag tag.
(** 91-93 *)
Definition has (s : subset) (v : Z) : bool := Z.land v (bs_mask s) =? bs_tag s.
(** 99-101 *)
Definition superposition (s : subset) : Z := u64_not (bs_mask s).
(** 95-97 *)
Definition union (s : subset) : Z := Z.lxor (bs_tag s) (superposition s).
(** 103-105 *)
Definition or_unchecked (a b : subset) : outcome subset :=
  from_tag_and_union (Z.land (bs_tag a) (bs_tag b)) (Z.lor (union a) (union b)).
(** [or], 107-110 *)
Definition subset_or (a b : subset) : outcome subset :=
  if superposition a =? superposition b then or_unchecked a b else Panic.
(** [and], 112-114 *)
Definition subset_and (a b : subset) : outcome subset :=
  from_tag_and_union (Z.lor (bs_tag a) (bs_tag b)) (Z.land (union a) (union b)).
(** [split], 116-127 *)
Definition split (s : subset) (sub_mask : Z) : outcome (subset * subset) :=
  if sub_mask =? 0 then Panic
  else if negb (Z.land sub_mask (bs_mask s) =? 0) then Panic
  else
    let mask := Z.lor (bs_mask s) sub_mask in
    let! a := from_tag_and_mask (bs_tag s) mask in
    let! b := from_tag_and_mask (Z.lor (bs_tag s) sub_mask) mask in
    Ok (a, b).
(** 129-131 *)
Definition subset_value_to_raw_value (s : subset) (v : Z) : Z := Z.land (superposition s) v.
(** 133-135; [typed_value_to_subset_value], 137-139, and [subset_value_to_typed_value],
    141-143, add a [cast] (below). *)
Definition raw_value_to_subset_value (s : subset) (v : Z) : Z := Z.lor (bs_tag s) v.

(** * bitset.rs: the constants, evaluated by the compiler (a panic is a compile error) *)
Definition all_subsets : outcome (subset * subset * subset * subset * subset * subset * subset * subset) :=
  let! EXTENSION := from_tag 0xFFF8000000000000 in                          (* 7 *)
  let! (SIMPLE, REF) := split EXTENSION 0x0004000000000000 in               (* 9-12 *)
  let! (BOOL, NULL) := split SIMPLE 0x0002000000000000 in                   (* 16, 20, 27 *)
  let! (REF0, REF1) := split REF 0x0002000000000000 in                      (* 34 *)
  let! (STRING, OBJECT) := split REF0 0x0001000000000000 in                 (* 36, 42, 46 *)
  let! (ARRAY, BIGINT) := split REF1 0x0001000000000000 in                  (* 38, 50, 54 *)
  Ok (EXTENSION, REF, BOOL, NULL, STRING, OBJECT, ARRAY, BIGINT).
Definition pick {A} (f : subset * subset * subset * subset * subset * subset * subset * subset -> A) (d : A) : A :=
  match all_subsets with Ok t => f t | _ => d end.
Definition no_subset : subset := {| bs_tag := 0; bs_mask := 0 |}.
Definition EXTENSION := Eval vm_compute in pick (fun '(e, _, _, _, _, _, _, _) => e) no_subset.
Definition REF := Eval vm_compute in pick (fun '(_, e, _, _, _, _, _, _) => e) no_subset.
Definition BOOL := Eval vm_compute in pick (fun '(_, _, e, _, _, _, _, _) => e) no_subset.
Definition NULL := Eval vm_compute in pick (fun '(_, _, _, e, _, _, _, _) => e) no_subset.
Definition STRING := Eval vm_compute in pick (fun '(_, _, _, _, e, _, _, _) => e) no_subset.
Definition OBJECT := Eval vm_compute in pick (fun '(_, _, _, _, _, e, _, _) => e) no_subset.
Definition ARRAY := Eval vm_compute in pick (fun '(_, _, _, _, _, _, e, _) => e) no_subset.
Definition BIGINT := Eval vm_compute in pick (fun '(_, _, _, _, _, _, _, e) => e) no_subset.
(** 32 *)
Definition REF_SUBSET_SUPERPOSITION : Z := 0xFFFFFFFFFFFF.
(** [ref_type], 61-63: the cast to [u8] changes nothing below 4. *)
Definition ref_type (v : Z) : Z := Z.land (Z.shiftr v 48) 3.

(** * Values that can be stored *)

(** [Type], type_.rs 2-10. *)
Inductive jtype := JNumber | JBool | JString | JNull | JObject | JArray | JBigint.

(** A value on the way into or out of an [Any]: [f64], [bool], [Null], or a [Ref] to a block
    ([Visitor], visitor.rs 8-16, has the same shape). *)
Inductive boxed := BNumber (bits : Z) | BBool (b : bool) | BNull | BString (p : Z) | BObject (p : Z) | BArray (p : Z) | BBigint (p : Z).
Definition boxed_type (x : boxed) : jtype :=
  match x with
  | BNumber _ => JNumber | BBool _ => JBool | BNull => JNull
  | BString _ => JString | BObject _ => JObject | BArray _ => JArray | BBigint _ => JBigint
  end.

(** [ValueCast::SUBSET] (bool.rs 6, null.rs 21) and [RefCast::REF_SUBSET] (js_string.rs 21,
    js_object.rs 25, js_array.rs 22, js_bigint.rs 50); numbers have none. *)
Definition subset_of (t : jtype) : option subset :=
  match t with
  | JNumber => None | JBool => Some BOOL | JNull => Some NULL
  | JString => Some STRING | JObject => Some OBJECT | JArray => Some ARRAY | JBigint => Some BIGINT
  end.

(** [AnyCast::has_same_type], any_cast.rs 24-26 and 39-41, number.rs 7-9; [Any::is], any.rs 21. *)
Definition is_type (t : jtype) (v : Z) : bool :=
  match subset_of t with None => negb (has EXTENSION v) | Some s => has s v end.

(** [AnyCast::move_to_any_internal], any_cast.rs 28-30 and 43-45, number.rs 11-13, with the
    casts of cast.rs and null.rs 7-12. *)
Definition move_to_any (x : boxed) : Z :=
  match x with
  | BNumber bits => bits
  | BBool b => raw_value_to_subset_value BOOL (if b then 1 else 0)
  | BNull => raw_value_to_subset_value NULL 0
  | BString p => raw_value_to_subset_value STRING p
  | BObject p => raw_value_to_subset_value OBJECT p
  | BArray p => raw_value_to_subset_value ARRAY p
  | BBigint p => raw_value_to_subset_value BIGINT p
  end.

(** [AnyCast::from_any_internal], any_cast.rs 32-34 and 47-49, number.rs 15-17. *)
Definition from_any_internal (t : jtype) (v : Z) : boxed :=
  match t with
  | JNumber => BNumber v
  | JBool => BBool (negb (subset_value_to_raw_value BOOL v =? 0))
  | JNull => BNull
  | JString => BString (subset_value_to_raw_value STRING v)
  | JObject => BObject (subset_value_to_raw_value OBJECT v)
  | JArray => BArray (subset_value_to_raw_value ARRAY v)
  | JBigint => BBigint (subset_value_to_raw_value BIGINT v)
  end.

(** [Any::try_move], any.rs 42-47: [None] is [Err(())]. *)
Definition try_move (t : jtype) (v : Z) : option boxed :=
  if is_type t v then Some (from_any_internal t v) else None.

(** [is_ref], any_internal.rs 55-57. *)
Definition is_ref (v : Z) : bool := has REF v.

(** [Any::get_type], any.rs 49-66. *)
Definition get_type (v : Z) : outcome jtype :=
  if is_ref v then
    let r := ref_type v in
    if r =? 0 then Ok JString else if r =? 1 then Ok JObject else if r =? 2 then Ok JArray
    else if r =? 3 then Ok JBigint else Panic   (* unreachable!() *)
  else if is_type JNumber v then Ok JNumber
  else if is_type JNull v then Ok JNull
  else Ok JBool.

(** [Any::try_ref], any.rs 83-90: the address of the block. *)
Definition try_ref (t : jtype) (v : Z) : option Z :=
  match subset_of t with
  | Some s => if has s v then Some (Z.land v REF_SUBSET_SUPERPOSITION) else None
  | None => None
  end.

(** [try_get_block_header], any_internal.rs 59-65. *)
Definition block_header (v : Z) : option Z :=
  if is_ref v then Some (Z.land v REF_SUBSET_SUPERPOSITION) else None.

(** [to_visitor], visitor.rs 18-28. *)
Definition to_visitor (v : Z) : outcome boxed :=
  let! t := get_type v in
  match t with
  | JNull => Ok BNull
  | _ => match try_move t v with Some x => Ok x | None => Panic end
  end.

(** [==] on [Any]: optional_ref.rs 16-21 and any_internal.rs 24-29. *)
Definition any_eq (a b : Z) : bool := a =? b.
