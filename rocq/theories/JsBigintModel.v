(** Model of nanvm-lib/src/js/js_bigint.rs.  The memory manager argument of the Rust
    functions only allocates the result block; allocation is not modelled here (see the
    memory files), so a [JsBigintMutRef] is the value it points to. *)
From Coq Require Import ZArith List Bool.
From Verif Require Import Outcome LimbsModel BigIntModel.
Import ListNotations.
Open Scope Z_scope.

(** js_bigint.rs:24-40: a header with a signed length, and the limbs. *)
Record jsbigint := { jb_len : Z; jb_items : list Z }.

(** js_bigint.rs:65-77 *)
Definition new_bigint (s : sign) (items : list Z) : jsbigint :=
  {| jb_len := Z.of_nat (length items) * sign_int s; jb_items := items |}.

(** js_bigint.rs:79-86 *)
Definition opposite (s : sign) : sign :=
  match s with Positive => Negative | Negative => Positive end.

(** js_bigint.rs:476-484 *)
Definition jb_sign (a : jsbigint) : sign := if jb_len a <? 0 then Negative else Positive.

(** js_bigint.rs:88-90 *)
Definition jb_zero : jsbigint := new_bigint Positive [].

(** js_bigint.rs:92-97 *)
Definition jb_from_u64 (s : sign) (n : Z) : jsbigint :=
  if n =? 0 then jb_zero else new_bigint s [n].

(** js_bigint.rs:125-127 *)
Definition jb_is_zero (a : jsbigint) : bool :=
  match jb_items a with [] => true | _ => false end.

(** js_bigint.rs:510-512 *)
Definition sub_vec_norm (lhs rhs : list Z) : list Z := normalize_vec (sub_vec lhs rhs).

(** js_bigint.rs:99-111 *)
Definition jb_not (a : jsbigint) : jsbigint :=
  if jb_is_zero a then jb_from_u64 Negative 1 else
  match jb_sign a with
  | Positive => new_bigint Negative (add_vec (jb_items a) [1])
  | Negative => new_bigint Positive (normalize_vec (sub_vec (jb_items a) [1]))
  end.

(** js_bigint.rs:113-123 *)
Definition jb_add (a b : jsbigint) : jsbigint :=
  if sign_eqb (jb_sign a) (jb_sign b)
  then new_bigint (jb_sign a) (add_vec (jb_items a) (jb_items b))
  else match cmp_vec (jb_items a) (jb_items b) with
       | Eq => jb_zero
       | Gt => new_bigint (jb_sign a) (sub_vec_norm (jb_items a) (jb_items b))
       | Lt => new_bigint (jb_sign b) (sub_vec_norm (jb_items b) (jb_items a))
       end.

(** js_bigint.rs:129-136 *)
Definition jb_compare (a b : jsbigint) : comparison :=
  match jb_len a ?= jb_len b with
  | Eq => cmp_vec (jb_items a) (jb_items b)
  | Lt => Lt
  | Gt => Gt
  end.

(** js_bigint.rs:138-143 *)
Definition jb_get_last_bit (a : jsbigint) : Z :=
  match jb_items a with [] => 0 | d :: _ => Z.land d 1 end.

(** js_bigint.rs:146-151 *)
Definition jb_negative (a : jsbigint) : jsbigint :=
  if jb_is_zero a then jb_zero else new_bigint (opposite (jb_sign a)) (jb_items a).

(** js_bigint.rs:153-167 *)
Definition jb_sub (a b : jsbigint) : jsbigint :=
  if negb (sign_eqb (jb_sign a) (jb_sign b))
  then new_bigint (jb_sign a) (add_vec (jb_items a) (jb_items b))
  else match cmp_vec (jb_items a) (jb_items b) with
       | Eq => jb_zero
       | Gt => new_bigint (jb_sign a) (sub_vec_norm (jb_items a) (jb_items b))
       | Lt => new_bigint (opposite (jb_sign b)) (sub_vec_norm (jb_items b) (jb_items a))
       end.

(** js_bigint.rs:169-178 *)
Definition jb_mul (a b : jsbigint) : outcome jsbigint :=
  if jb_is_zero a || jb_is_zero b then Ok jb_zero else
  let! v := mul_vec (jb_items a) (jb_items b) in
  Ok (new_bigint (mul_sign (jb_sign a) (jb_sign b)) v).

(** js_bigint.rs:229-259, the division loop (no bound in the source).  The test of the
    estimate is [a.cmp(&m)] on [Vec<u64>] (js_bigint.rs:252), and [sub_vec] wraps. *)
Fixpoint jb_div_loop (fuel : nat) (a b result : list Z) : outcome (list Z * list Z) :=
  match fuel with
  | O => NoFuel
  | S fuel' =>
      match cmp_vec a b with
      | Lt => Ok (result, a)
      | _ =>
          let! (q_index, q_digit) := estimate a b in
          let q := q_vec q_index q_digit in
          let! m := mul_vec b q in
          match std_vec_cmp a m with
          | Lt =>
              if q_digit =? 0 then Panic else
              let q' := q_vec q_index (q_digit - 1) in
              let! m' := mul_vec b q' in
              jb_div_loop fuel' (normalize_vec (sub_vec a m')) b (add_vec result q')
          | _ => jb_div_loop fuel' (normalize_vec (sub_vec a m)) b (add_vec result q)
          end
      end
  end.

(** js_bigint.rs:208-262 *)
Definition jb_div_mod (fuel : nat) (a b : jsbigint) : outcome (jsbigint * jsbigint) :=
  if jb_is_zero b then Panic else
  let s := mul_sign (jb_sign a) (jb_sign b) in
  match cmp_vec (jb_items a) (jb_items b) with
  | Lt => Ok (jb_zero, new_bigint s (jb_items b))
  | Eq => Ok (jb_from_u64 s 1, jb_zero)
  | Gt =>
      let! (q, r) := jb_div_loop fuel (jb_items a) (jb_items b) [] in
      Ok (new_bigint s q, new_bigint s r)
  end.

(** js_bigint.rs:300-309 *)
Fixpoint jb_pow_loop (fuel : nat) (s : sign) (res b : list Z) (rhs : Z) : outcome jsbigint :=
  match fuel with
  | O => NoFuel
  | S fuel' =>
      if rhs =? 0 then Ok (new_bigint s res) else
      let! res' := (if 0 <? Z.land rhs 1 then mul_vec res b else Ok res) in
      let! b' := mul_vec b b in
      jb_pow_loop fuel' s res' b' (Z.shiftr rhs 1)
  end.

(** js_bigint.rs:292-310; 65 iterations suffice for a u64 exponent (proved). *)
Definition jb_pow_u64 (a : jsbigint) (rhs : Z) : outcome jsbigint :=
  let s := if sign_eqb (jb_sign a) Positive || (Z.land rhs 1 =? 0) then Positive else Negative in
  jb_pow_loop 65 s [1] (jb_items a) rhs.

(** js_bigint.rs:264-290 *)
Definition jb_pow (a rhs : jsbigint) : outcome jsbigint :=
  if sign_eqb (jb_sign rhs) Negative then Panic else
  if (match jb_items a with [x] => x =? 1 | _ => false end) then Ok (jb_from_u64 Positive 1) else
  if jb_is_zero a then Ok (if jb_is_zero rhs then jb_from_u64 Positive 1 else jb_zero) else
  match jb_items rhs with
  | [] => Ok (jb_from_u64 Positive 1)
  | [e] => jb_pow_u64 a e
  | _ => Panic
  end.

(** js_bigint.rs:29-32 *)
Record twos := { tc_sign : sign; tc_vec : list Z }.

(** js_bigint.rs:56-63 *)
Definition tc_repeat (t : twos) : Z :=
  match tc_sign t with Positive => 0 | Negative => B - 1 end.

(** [!d] on u64 *)
Definition not64 (d : Z) : Z := B - 1 - d.

(** js_bigint.rs:384-399 *)
Definition to_twos_complement (a : jsbigint) : twos :=
  {| tc_sign := jb_sign a;
     tc_vec := match jb_sign a with
               | Positive => jb_items a
               | Negative => map not64 (sub_vec (jb_items a) [1])
               end |}.

(** js_bigint.rs:401-417 *)
Definition from_twos_complement (t : twos) : jsbigint :=
  match tc_sign t with
  | Positive => new_bigint Positive (tc_vec t)
  | Negative =>
      let res := normalize_vec (map not64 (sub_vec (tc_vec t) [1])) in
      match res with
      | [] => jb_from_u64 Negative 1
      | _ :: _ => new_bigint Negative res
      end
  end.

(** [long.zip(short.chain(repeat(r)))] *)
Fixpoint zip_repeat (long short : list Z) (r : Z) : list (Z * Z) :=
  match long with
  | [] => []
  | a :: long' => (a, match short with [] => r | b :: _ => b end) :: zip_repeat long' (tl short) r
  end.

(** js_bigint.rs:458-474 (the pair is (longer, shorter)) *)
Definition tc_zip (l r : twos) : list (Z * Z) :=
  if (length (tc_vec l) <? length (tc_vec r))%nat
  then zip_repeat (tc_vec r) (tc_vec l) (tc_repeat l)
  else zip_repeat (tc_vec l) (tc_vec r) (tc_repeat r).

(** js_bigint.rs:419-430 *)
Definition and_twos (l r : twos) : twos :=
  {| tc_sign := if sign_eqb (tc_sign l) Negative && sign_eqb (tc_sign r) Negative
                then Negative else Positive;
     tc_vec := normalize_vec (map (fun p => Z.land (fst p) (snd p)) (tc_zip l r)) |}.

(** js_bigint.rs:432-443 *)
Definition or_twos (l r : twos) : twos :=
  {| tc_sign := if sign_eqb (tc_sign l) Negative || sign_eqb (tc_sign r) Negative
                then Negative else Positive;
     tc_vec := normalize_vec (map (fun p => Z.lor (fst p) (snd p)) (tc_zip l r)) |}.

(** js_bigint.rs:445-456 *)
Definition xor_twos (l r : twos) : twos :=
  {| tc_sign := if sign_eqb (tc_sign l) (tc_sign r) then Positive else Negative;
     tc_vec := normalize_vec (map (fun p => Z.lxor (fst p) (snd p)) (tc_zip l r)) |}.

(** js_bigint.rs:312-317 *)
Definition jb_and (a b : jsbigint) : jsbigint :=
  from_twos_complement (and_twos (to_twos_complement a) (to_twos_complement b)).
(** js_bigint.rs:319-324 *)
Definition jb_or (a b : jsbigint) : jsbigint :=
  from_twos_complement (or_twos (to_twos_complement a) (to_twos_complement b)).
(** js_bigint.rs:326-331 *)
Definition jb_xor (a b : jsbigint) : jsbigint :=
  from_twos_complement (xor_twos (to_twos_complement a) (to_twos_complement b)).

(** js_bigint.rs:377-382 *)
Definition jb_equals (a b : jsbigint) : bool :=
  if negb (sign_eqb (jb_sign a) (jb_sign b)) then false
  else match cmp_vec (jb_items a) (jb_items b) with Eq => true | _ => false end.

(** js_bigint.rs:605-610 *)
Definition shr_on_big (s : sign) : jsbigint :=
  match s with Positive => jb_zero | Negative => jb_from_u64 Negative 1 end.

(** js_bigint.rs:550-573 *)
Definition jb_shl_on_u64 (a : jsbigint) (rhs : Z) : outcome jsbigint :=
  let! v := shl_limbs (jb_items a) rhs in
  Ok (new_bigint (jb_sign a) v).

(** js_bigint.rs:575-603 *)
Definition jb_shr_on_u64 (a : jsbigint) (rhs : Z) : jsbigint :=
  if (length (jb_items a) <=? Z.to_nat (rhs / 64))%nat then shr_on_big (jb_sign a) else
  let v := shr_limbs (jb_items a) rhs in
  match v, jb_sign a with
  | [], Negative => jb_from_u64 Negative 1
  | _, s => new_bigint s v
  end.

(** js_bigint.rs:333-353 *)
Definition jb_shl (a rhs : jsbigint) : outcome jsbigint :=
  if jb_is_zero a then Ok jb_zero else
  if jb_is_zero rhs then Ok (new_bigint (jb_sign a) (jb_items a)) else
  match jb_items rhs with
  | [n] => match jb_sign rhs with
           | Positive => jb_shl_on_u64 a n
           | Negative => Ok (jb_shr_on_u64 a n)
           end
  | _ => match jb_sign rhs with
         | Positive => Panic
         | Negative => Ok (shr_on_big (jb_sign a))
         end
  end.

(** js_bigint.rs:355-375 *)
Definition jb_shr (a rhs : jsbigint) : outcome jsbigint :=
  if jb_is_zero a then Ok jb_zero else
  if jb_is_zero rhs then Ok (new_bigint (jb_sign a) (jb_items a)) else
  match jb_items rhs with
  | [n] => match jb_sign rhs with
           | Positive => Ok (jb_shr_on_u64 a n)
           | Negative => jb_shl_on_u64 a n
           end
  | _ => match jb_sign rhs with
         | Positive => Ok (shr_on_big (jb_sign a))
         | Negative => Panic
         end
  end.
