(** The limb-vector loops.  The same Rust text occurs twice, in
    nanvm-lib/src/big_numbers/big_uint.rs and nanvm-lib/src/js/js_bigint.rs; each
    definition cites both places.  A [Vec<u64>] is a [list Z], least significant limb
    first, every element meant to be in [0, 2^64). *)
From Coq Require Import ZArith List Bool.
From Verif Require Import Outcome.
Import ListNotations.
Open Scope Z_scope.

(** 2^64, the base of the limb representation ([u64::MAX + 1]). *)
Definition B : Z := 2 ^ 64.

(** Loop body of addition: big_uint.rs:169-176 and js_bigint.rs:499-506.
    The shorter operand is continued by [iter::repeat(0)]; [next as u64] is [mod B],
    [next >> 64] is [/ B]; a non-zero final carry is pushed. *)
Fixpoint add_loop (long short : list Z) (carry : Z) : list Z :=
  match long with
  | [] => if carry =? 0 then [] else [carry mod B]
  | a :: long' =>
      let next := a + hd 0 short + carry in
      (next mod B) :: add_loop long' (tl short) (next / B)
  end.

(** big_uint.rs:151-179 ([Add for &BigUint]) and js_bigint.rs:486-508 ([add_vec]). *)
Definition add_vec (lhs rhs : list Z) : list Z :=
  if (length lhs <? length rhs)%nat then add_loop rhs lhs 0 else add_loop lhs rhs 0.

(** Loop of subtraction: big_uint.rs:195-199 and js_bigint.rs:521-525.
    [next] is an i128; [next as u64] is [mod B]; [next >> 64 & 1] is the borrow
    (arithmetic shift).  Limbs of [rhs] beyond the length of [lhs] are ignored, as [zip] does. *)
Fixpoint sub_loop (lhs rhs : list Z) (borrow : Z) : list Z :=
  match lhs with
  | [] => []
  | a :: lhs' =>
      let next := a - hd 0 rhs - borrow in
      (next mod B) :: sub_loop lhs' (tl rhs) (Z.land (Z.shiftr next 64) 1)
  end.

(** js_bigint.rs:514-527 ([sub_vec]); the body of big_uint.rs:187-199. *)
Definition sub_vec (lhs rhs : list Z) : list Z := sub_loop lhs rhs 0.

(** [while let Some(&0) = vec.last() { vec.pop(); }] on the reversed vector. *)
Fixpoint drop_zeros (v : list Z) : list Z :=
  match v with
  | [] => []
  | d :: v' => if d =? 0 then drop_zeros v' else v
  end.

(** big_uint.rs:23-27 ([normalize]) and js_bigint.rs:529-534 ([normalize_vec]). *)
Definition normalize_vec (v : list Z) : list Z := rev (drop_zeros (rev v)).

(** The digit loop of comparison, most significant limb first:
    big_uint.rs:222-234 and js_bigint.rs:542-547. *)
Fixpoint cmp_digits (lhs rhs : list Z) : comparison :=
  match lhs, rhs with
  | a :: lhs', b :: rhs' => if a =? b then cmp_digits lhs' rhs' else (a ?= b)
  | _, _ => Eq
  end.

(** big_uint.rs:214-236 ([Ord::cmp]) and js_bigint.rs:536-548 ([cmp_vec]). *)
Definition cmp_vec (lhs rhs : list Z) : comparison :=
  if (length lhs =? length rhs)%nat then cmp_digits (rev lhs) (rev rhs)
  else (length lhs ?= length rhs)%nat.

(** [Ord::cmp] of [Vec<u64>] in the Rust standard library (lexicographic from index 0,
    a proper prefix is smaller); used by js_bigint.rs:252. *)
Fixpoint std_vec_cmp (lhs rhs : list Z) : comparison :=
  match lhs, rhs with
  | [], [] => Eq
  | [], _ :: _ => Lt
  | _ :: _, [] => Gt
  | a :: lhs', b :: rhs' => match a ?= b with Eq => std_vec_cmp lhs' rhs' | c => c end
  end.

(** nanvm-lib/src/common/vec.rs [new_resize]: a vector of [n] default values. *)
Definition new_resize (n : nat) : list Z := repeat 0 n.

(** big_uint.rs:354-362 and js_bigint.rs:198-206 ([add_to_vec]).  An index out of bounds
    and an overflow of the u128 sum are panics. *)
Fixpoint add_to_vec (vec : list Z) (index : nat) (add : Z) : outcome (list Z) :=
  match vec, index with
  | [], _ => Panic
  | d :: vec', S index' => let! r := add_to_vec vec' index' add in Ok (d :: r)
  | d :: vec', O =>
      let sum := d + add in
      if B * B <=? sum then Panic else
      let carry := sum / B in
      if 0 <? carry
      then let! r := add_to_vec vec' O carry in Ok ((sum mod B) :: r)
      else Ok ((sum mod B) :: vec')
  end.

(** The pairs [(i, j)] visited by the double loop of big_uint.rs:250-259 and
    js_bigint.rs:185-194, in order: i from 0 below [total_max], j from
    [i.saturating_sub(rhs_max)] to [min i lhs_max] inclusive. *)
Definition mul_indices (lhs_max rhs_max : nat) : list (nat * nat) :=
  flat_map (fun i => let j0 := (i - rhs_max)%nat in
                     let max := if (i <? lhs_max)%nat then i else lhs_max in
                     map (fun j => (i, j)) (seq j0 (S max - j0)))
           (seq 0 (lhs_max + rhs_max + 1)).

(** Body of the double loop; [lhs[j]] and [rhs[i - j]] panic if out of bounds. *)
Fixpoint mul_loop (lhs rhs : list Z) (ixs : list (nat * nat)) (vec : list Z) : outcome (list Z) :=
  match ixs with
  | [] => Ok vec
  | (i, j) :: ixs' =>
      match nth_error lhs j, nth_error rhs (i - j)%nat with
      | Some x, Some y => let! vec' := add_to_vec vec i (x * y) in mul_loop lhs rhs ixs' vec'
      | _, _ => Panic
      end
  end.

(** js_bigint.rs:180-196 ([mul_vec]); the part of big_uint.rs:241-264 after the zero test.
    [len - 1] on an empty slice is an arithmetic underflow (panic). *)
Definition mul_vec (lhs rhs : list Z) : outcome (list Z) :=
  match length lhs, length rhs with
  | S lhs_max, S rhs_max =>
      let! v := mul_loop lhs rhs (mul_indices lhs_max rhs_max)
                  (new_resize (lhs_max + rhs_max + 2)) in
      Ok (normalize_vec v)
  | _, _ => Panic
  end.

(** The quotient estimate: big_uint.rs:117-133 and js_bigint.rs:233-248.  Returns
    [(q_index, q_digit)].  Panics: [len - 1] or an index underflow on empty vectors,
    [a[a_high_digit - 1]] missing, [a_high_digit - b_high_digit (- 1)] underflow, division
    by a zero top limb. *)
Definition estimate (a b : list Z) : outcome (nat * Z) :=
  match rev a, rev b with
  | a_high :: a_rest, b_high :: _ =>
      let a_hd := (length a - 1)%nat in
      let b_hd := (length b - 1)%nat in
      if b_high <=? a_high then
        if (a_hd <? b_hd)%nat then Panic else
        if b_high =? 0 then Panic else
        Ok ((a_hd - b_hd)%nat, a_high / b_high)
      else
        match a_rest with
        | [] => Panic
        | a_next :: _ =>
            if (a_hd <? b_hd + 1)%nat then Panic else
            Ok ((a_hd - b_hd - 1)%nat, ((a_high * B + a_next) / b_high) mod B)
        end
  | _, _ => Panic
  end.

(** [q = new_resize(q_index + 1); q[q_index] = d]: big_uint.rs:134-137, js_bigint.rs:249-250. *)
Definition q_vec (q_index : nat) (d : Z) : list Z := new_resize q_index ++ [d].

(** Left shift within limbs, shift 1..63: big_uint.rs:294-303 and js_bigint.rs:553-562.
    [vec] already has the pushed zero limb on top.  The loop runs from the highest index
    down; [digit] is a u128. *)
Fixpoint shl_loop (s : Z) (vec : list Z) : list Z :=
  match vec with
  | [] => []
  | d :: rest =>
      match rest with
      | [] => [d]
      | _ :: _ =>
          match shl_loop s rest with
          | [] => []
          | e :: rest' =>
              let digit := d * 2 ^ s in
              (digit mod B) :: Z.lor e (digit / B) :: rest'
          end
      end
  end.

(** big_uint.rs:292-311 and js_bigint.rs:551-569: shift by [n], [vec] not empty when
    [n mod 64 > 0] ([0..=len - 1] underflows otherwise). *)
Definition shl_limbs (vec : list Z) (n : Z) : outcome (list Z) :=
  let shift_mod := Z.land n (2 ^ 6 - 1) in
  let! v := (if 0 <? shift_mod then
               match vec with
               | [] => Panic
               | _ :: _ => Ok (shl_loop shift_mod (vec ++ [0]))
               end
             else Ok vec) in
  let number_of_zeros := Z.to_nat (n / 64) in
  Ok (normalize_vec (new_resize number_of_zeros ++ v)).

(** Right shift within limbs: big_uint.rs:337-345 and js_bigint.rs:587-595.  The mask is
    the one of the source, [1 << (shift_mod - 1)]; the limb read for the carry is the
    next, not yet shifted one; [<< (64 - shift_mod)] on u64 drops high bits. *)
Fixpoint shr_loop (s mask : Z) (vec : list Z) : list Z :=
  match vec with
  | [] => []
  | d :: rest =>
      match rest with
      | [] => [Z.shiftr d s]
      | e :: _ =>
          Z.lor (Z.shiftr d s) ((Z.shiftl (Z.land e mask) (64 - s)) mod B)
          :: shr_loop s mask rest
      end
  end.

(** big_uint.rs:331-350 and js_bigint.rs:581-598, after the length test. *)
Definition shr_limbs (vec : list Z) (n : Z) : list Z :=
  let v := skipn (Z.to_nat (n / 64)) vec in
  let shift_mod := Z.land n (2 ^ 6 - 1) in
  normalize_vec (if 0 <? shift_mod then shr_loop shift_mod (2 ^ (shift_mod - 1)) v else v).
