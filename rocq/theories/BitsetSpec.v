(** What subsets of bit patterns and boxed values are expected to be. *)
From Coq Require Import ZArith List Bool.
From Verif Require Import Outcome BitsetModel.
Import ListNotations.
Open Scope Z_scope.

Definition u64v (v : Z) : Prop := 0 <= v < 2 ^ 64.

(** A pattern of fixed bits ([bs_mask]) with the values [bs_tag]. *)
Definition pattern (s : subset) : Prop :=
  u64v (bs_tag s) /\ u64v (bs_mask s) /\ forall i, Z.testbit (bs_tag s) i = true -> Z.testbit (bs_mask s) i = true.
(** The values that match it. *)
Definition member (s : subset) (v : Z) : Prop :=
  u64v v /\ forall i, Z.testbit (bs_mask s) i = true -> Z.testbit v i = Z.testbit (bs_tag s) i.

(** The kinds of values by their bit patterns, as intervals. *)
Definition type_range (t : jtype) : Z * Z :=
  match t with
  | JNumber => (0, 0xFFF8000000000000)
  | JBool => (0xFFF8000000000000, 0xFFFA000000000000)
  | JNull => (0xFFFA000000000000, 0xFFFC000000000000)
  | JString => (0xFFFC000000000000, 0xFFFD000000000000)
  | JObject => (0xFFFD000000000000, 0xFFFE000000000000)
  | JArray => (0xFFFE000000000000, 0xFFFF000000000000)
  | JBigint => (0xFFFF000000000000, 0x10000000000000000)
  end.
Definition in_range (t : jtype) (v : Z) : Prop := fst (type_range t) <= v < snd (type_range t).

(** NaNs: all ones in the exponent and a fraction that is not 0. *)
Definition f64_is_nan (bits : Z) : Prop := Z.land (Z.shiftr bits 52) 2047 = 2047 /\ Z.land bits (2 ^ 52 - 1) <> 0.

(** The values that an [Any] can hold faithfully: every number but the negative quiet NaNs,
    and blocks at addresses below 2^48. *)
Definition storable (x : boxed) : Prop :=
  match x with
  | BNumber bits => 0 <= bits < 0xFFF8000000000000
  | BBool _ | BNull => True
  | BString p | BObject p | BArray p | BBigint p => 0 <= p < 2 ^ 48
  end.
Definition boxed_address (x : boxed) : option Z :=
  match x with BString p | BObject p | BArray p | BBigint p => Some p | _ => None end.
