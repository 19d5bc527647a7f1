(** Specification vocabulary for limb vectors: the integer they denote, being a vector of
    u64 and being canonical (no zero limb on top).  Nothing here comes from the Rust code. *)
From Coq Require Import ZArith List.
Import ListNotations.
Open Scope Z_scope.

(** Integer denoted by a little-endian base 2^64 digit list. *)
Fixpoint val (v : list Z) : Z :=
  match v with
  | [] => 0
  | d :: v' => d + 2 ^ 64 * val v'
  end.

(** All elements are u64 values. *)
Definition limbs (v : list Z) : Prop := Forall (fun d => 0 <= d < 2 ^ 64) v.

(** u64 elements and a non-zero last (most significant) element, if there is one. *)
Definition canon (v : list Z) : Prop := limbs v /\ last v 1 <> 0.

(** Where the right shift of the code loses no bit: the count is a multiple of 64, or every
    limb above the new lowest one has its [n mod 64 - 1] lowest bits zero. *)
Definition shr_exact (v : list Z) (n : Z) : Prop :=
  n mod 64 = 0 \/
  forall i, n / 64 < Z.of_nat i -> nth i v 0 mod 2 ^ (n mod 64 - 1) = 0.
