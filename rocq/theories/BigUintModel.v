(** Model of nanvm-lib/src/big_numbers/big_uint.rs.  [BigUint { value }] is its vector. *)
From Coq Require Import ZArith List Bool.
From Verif Require Import Outcome LimbsModel.
Import ListNotations.
Open Scope Z_scope.

Definition biguint : Type := list Z.

(** big_uint.rs:17 *)
Definition bu_zero : biguint := [].
(** big_uint.rs:19-21 *)
Definition bu_one : biguint := [1].
(** big_uint.rs:29-31 *)
Definition bu_is_one (a : biguint) : bool :=
  match a with [x] => x =? 1 | _ => false end.
(** big_uint.rs:39-45 ([is_empty], [is_zero]) *)
Definition bu_is_zero (a : biguint) : bool :=
  match a with [] => true | _ => false end.
(** big_uint.rs:47-49 *)
Definition bu_from_u64 (n : Z) : biguint := [n].
(** big_uint.rs:90-96 *)
Definition bu_get_last_bit (a : biguint) : Z :=
  match a with [] => 0 | d :: _ => Z.land d 1 end.

(** big_uint.rs:151-179 *)
Definition bu_add (a b : biguint) : biguint := add_vec a b.

(** big_uint.rs:214-236 *)
Definition bu_cmp (a b : biguint) : comparison := cmp_vec a b.

(** big_uint.rs:181-206 *)
Definition bu_sub (a b : biguint) : biguint :=
  match bu_cmp a b with
  | Lt | Eq => bu_zero
  | Gt => normalize_vec (sub_vec a b)
  end.

(** big_uint.rs:238-265 *)
Definition bu_mul (a b : biguint) : outcome biguint :=
  if bu_is_zero a || bu_is_zero b then Ok bu_zero else mul_vec a b.

(** big_uint.rs:78-87: one iteration per binary digit of [exp : u64], so 65 iterations
    of fuel are never used up for [exp < 2^64] (proved). *)
Fixpoint bu_pow_loop (fuel : nat) (res b : biguint) (exp : Z) : outcome biguint :=
  match fuel with
  | O => NoFuel
  | S fuel' =>
      if exp =? 0 then Ok res else
      let! res' := (if 0 <? Z.land exp 1 then bu_mul res b else Ok res) in
      let! b' := bu_mul b b in
      bu_pow_loop fuel' res' b' (Z.shiftr exp 1)
  end.

(** big_uint.rs:75-88 *)
Definition bu_pow_u64 (a : biguint) (exp : Z) : outcome biguint :=
  bu_pow_loop 65 bu_one a exp.

(** big_uint.rs:51-73 *)
Definition bu_pow (a exp : biguint) : outcome biguint :=
  if bu_is_one a then Ok bu_one else
  if bu_is_zero a then Ok (if bu_is_zero exp then bu_one else bu_zero) else
  match exp with
  | [] => Ok bu_one
  | [e] => bu_pow_u64 a e
  | _ => Panic
  end.

(** big_uint.rs:113-145, the division loop; the loop has no bound in the source. *)
Fixpoint bu_div_loop (fuel : nat) (a b result : biguint) : outcome (biguint * biguint) :=
  match fuel with
  | O => NoFuel
  | S fuel' =>
      match bu_cmp a b with
      | Lt => Ok (result, a)
      | _ =>
          let! (q_index, q_digit) := estimate a b in
          let q := q_vec q_index q_digit in
          let! m := bu_mul b q in
          match bu_cmp a m with
          | Lt =>
              (* q_digit - 1 underflows when q_digit = 0 *)
              if q_digit =? 0 then Panic else
              let q' := q_vec q_index (q_digit - 1) in
              let! m' := bu_mul b q' in
              bu_div_loop fuel' (bu_sub a m') b (bu_add result q')
          | _ => bu_div_loop fuel' (bu_sub a m) b (bu_add result q)
          end
      end
  end.

(** big_uint.rs:102-148 *)
Definition bu_div_mod (fuel : nat) (a b : biguint) : outcome (biguint * biguint) :=
  if bu_is_zero b then Panic else
  match bu_cmp a b with
  | Lt => Ok (bu_zero, a)
  | Eq => Ok ([1], bu_zero)
  | Gt => bu_div_loop fuel a b bu_zero
  end.

(** big_uint.rs:267-278 *)
Definition bu_div (fuel : nat) (a b : biguint) : outcome biguint :=
  if bu_is_zero b then Panic else
  let! (q, _) := bu_div_mod fuel a b in Ok q.

(** big_uint.rs:280-316 *)
Definition bu_shl (a rhs : biguint) : outcome biguint :=
  if bu_is_zero a || bu_is_zero rhs then Ok a else
  match rhs with
  | [n] => shl_limbs a n
  | _ => Panic
  end.

(** big_uint.rs:318-352: only [rhs.value[0]] is read. *)
Definition bu_shr (a rhs : biguint) : outcome biguint :=
  if bu_is_zero a || bu_is_zero rhs then Ok a else
  match rhs with
  | [] => Panic
  | n :: _ =>
      if (length a <=? Z.to_nat (n / 64))%nat then Ok bu_zero
      else Ok (shr_limbs a n)
  end.
