(** Values held in an [Any], as the parser and the serializers see them
    (nanvm-lib/src/js/any.rs 16-18, js_array.rs 16, js_object.rs 17-19, js_string.rs 14,
    js_bigint.rs; NaN-boxing and reference counting are modelled separately).

    A reference to an array or an object carries the identity of its block (the address in
    the source); a cloned reference has the same identity.  Strings and bigints are also
    references in the source, but no code compares their addresses, so their identity is
    left out.  Numbers are binary64 bit patterns; strings are lists of UTF-16 units. *)
From Coq Require Import ZArith List Bool.
From Verif Require Import JsBigintModel.
Import ListNotations.
Open Scope Z_scope.

Inductive any : Type :=
| ANull
| ABool (b : bool)
| ANumber (bits : Z)
| AString (units : list Z)
| ABigint (b : jsbigint)
| AArray (id : Z) (items : list any)
| AObject (id : Z) (items : list (list Z * any)).

(** The block that a value refers to. *)
Definition ident_of (a : any) : option Z :=
  match a with AArray i _ | AObject i _ => Some i | _ => None end.

(** [BTreeMap<String, V>] (used for const tables, objects under construction and the module
    cache): an association list in increasing key order.  [str]'s order is the byte order of
    UTF-8, which is the lexicographic order of code points. *)
Fixpoint str_cmp (a b : list Z) : comparison :=
  match a, b with
  | [], [] => Eq
  | [], _ => Lt
  | _, [] => Gt
  | x :: a', y :: b' => match x ?= y with Eq => str_cmp a' b' | c => c end
  end.

Fixpoint bt_insert {V} (m : list (list Z * V)) (k : list Z) (v : V) : list (list Z * V) :=
  match m with
  | [] => [(k, v)]
  | (k', v') :: m' =>
      match str_cmp k k' with
      | Lt => (k, v) :: m
      | Eq => (k, v) :: m'
      | Gt => (k', v') :: bt_insert m' k v
      end
  end.

Fixpoint bt_get {V} (m : list (list Z * V)) (k : list Z) : option V :=
  match m with
  | [] => None
  | (k', v') :: m' => match str_cmp k k' with Eq => Some v' | _ => bt_get m' k end
  end.

(** [BTreeSet<String>] *)
Fixpoint bs_insert (m : list (list Z)) (k : list Z) : list (list Z) :=
  match m with
  | [] => [k]
  | k' :: m' =>
      match str_cmp k k' with
      | Lt => k :: m
      | Eq => k :: m'
      | Gt => k' :: bs_insert m' k
      end
  end.
Definition bs_contains (m : list (list Z)) (k : list Z) : bool :=
  existsb (fun k' => match str_cmp k k' with Eq => true | _ => false end) m.
Definition bs_remove (m : list (list Z)) (k : list Z) : list (list Z) :=
  filter (fun k' => match str_cmp k k' with Eq => false | _ => true end) m.

(** [String::encode_utf16] (standard library): one unit, or a surrogate pair. *)
Definition utf16_char (c : Z) : list Z :=
  if c <? 0x10000 then [c]
  else [0xD800 + Z.shiftr (c - 0x10000) 10; 0xDC00 + Z.land (c - 0x10000) 0x3FF].
Definition utf16 (s : list Z) : list Z := flat_map utf16_char s.
