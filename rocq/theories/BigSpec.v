(** Specification vocabulary for signed big integers: denoted integer and canonical form. *)
From Coq Require Import ZArith List.
From Verif Require Import LimbsModel LimbsSpec BigUintModel BigIntModel JsBigintModel.
Import ListNotations.
Open Scope Z_scope.

(** Integer denoted by a [BigInt]. *)
Definition bival (a : bigint) : Z :=
  match bi_sign a with Positive => val (bi_value a) | Negative => - val (bi_value a) end.

(** Canonical [BigInt]: canonical magnitude, and zero is positive. *)
Definition bicanon (a : bigint) : Prop :=
  canon (bi_value a) /\ (bi_value a = [] -> bi_sign a = Positive).

(** Integer denoted by a [JsBigint]: the sign is the sign of the header length. *)
Definition jval (a : jsbigint) : Z :=
  if jb_len a <? 0 then - val (jb_items a) else val (jb_items a).

(** Well-formed [JsBigint]: the header length is plus or minus the number of limbs, and the
    magnitude is canonical (so zero is the empty positive one). *)
Definition jwf (a : jsbigint) : Prop :=
  canon (jb_items a) /\ Z.abs (jb_len a) = Z.of_nat (length (jb_items a)).

(** Bit [i] of the mathematical result depends only on bit [i] of the operands: [Z.land],
    [Z.lor], [Z.lxor] of the standard library are the infinite two's complement operations
    used by ECMAScript BigInt. *)
