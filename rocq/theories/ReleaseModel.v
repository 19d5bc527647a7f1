(** Model of the number scanner and of two other places of the code in a build without overflow
    checks (a release build): arithmetic is modulo 2^64 where the debug build panics. *)
From Coq Require Import ZArith List Bool.
From Verif Require Import Outcome LimbsModel BigIntModel JsBigintModel BigFloatModel LayoutModel TokenizerModel TokenizerProofs TokenizerRun.
Import ListNotations.
Open Scope Z_scope.

(** The [i64] with the same lowest 64 bits. *)
Definition wrap64 (n : Z) : Z := (n + 2 ^ 63) mod 2 ^ 64 - 2 ^ 63.

(** The conversion of a decimal (tokenizer/mod.rs:210-213) is a parameter: what follows does not
    depend on it.  The one of the debug model is [convert]. *)
Definition conversion := jsbigint -> sign -> Z -> outcome Z.
Definition convert (fuel : nat) : conversion := fun b s e =>
  bigfloat_to_f64 fuel {| bf_sig := b; bf_sign := s; bf_exp := e; bf_rem := false |}.

(** tokenizer/mod.rs:261-272, 298-309, 335-341 *)
Definition number_token_r (conv : conversion) (b : jsbigint) (s : sign) (e : Z) : outcome token :=
  let! bits := conv b s e in Ok (TNumber bits).
(** 326-342 *)
Definition exp_state_into_token_r (conv : conversion) (b : jsbigint) (s : sign) (fe : Z) (es : sign) (e : Z) : outcome token :=
  number_token_r conv b s (wrap64 (fe + match es with Positive => e | Negative => wrap64 (- e) end)).
(** 281-285 *)
Definition frac_add_digit_r (b : jsbigint) (s : sign) (fe c : Z) : outcome tstate :=
  let! b' := add_digit b c in Ok (ParseFrac b' s (wrap64 (fe - 1))).
(** 320-323 *)
Definition exp_add_digit_r (b : jsbigint) (s : sign) (fe : Z) (es : sign) (e c : Z) : tstate :=
  ParseExp b s fe es (wrap64 (wrap64 (e * 10) + digit_to_number c)).

(** [push], 84-130: the states of numbers; the other states do no arithmetic that could
    overflow, so they are those of the debug model, which does not use its fuel there. *)
Definition push_r (conv : conversion) (st : tstate) (c : Z) : outcome (list token * tstate) :=
  let transfer (toks : list token) : outcome (list token * tstate) :=
    let! (next, st') := push O Initial c in Ok (toks ++ next, st') in
  let invalid := transfer [TError InvalidNumber] in
  match st with
  | ParseInt b s =>
      let! t := get_transition int_map c in
      match t with
      | Some NDigit => let! b' := add_digit b c in Ok ([], ParseInt b' s)
      | Some NDot => Ok ([], ParseFracBegin b s)
      | Some NExp => Ok ([], ParseExpBegin b s 0 Positive 0)
      | Some NBig => Ok ([], ParseBigInt (into_bigint_state b s))
      | Some NTerminal => let! n := number_token_r conv b s 0 in transfer [n]
      | None => invalid
      end
  | ParseFracBegin b s =>
      let! t := get_transition frac_begin_map c in
      match t with
      | Some _ => let! st' := frac_add_digit_r b s 0 c in Ok ([], st')
      | None => invalid
      end
  | ParseFrac b s fe =>
      let! t := get_transition frac_map c in
      match t with
      | Some FDigit => let! st' := frac_add_digit_r b s fe c in Ok ([], st')
      | Some FExp => Ok ([], ParseExpBegin b s fe Positive 0)
      | Some FTerminal => let! n := number_token_r conv b s fe in transfer [n]
      | None => invalid
      end
  | ParseExpBegin b s fe es e =>
      let! t := get_transition exp_begin_map c in
      match t with
      | Some BDigit => Ok ([], exp_add_digit_r b s fe es e c)
      | Some BPlus => Ok ([], ParseExpSign b s fe es e)
      | Some BMinus => Ok ([], ParseExpSign b s fe Negative e)
      | Some BTerminal => let! n := exp_state_into_token_r conv b s fe es e in transfer [n]
      | None => invalid
      end
  | ParseExpSign b s fe es e | ParseExp b s fe es e =>
      let! t := get_transition exp_map c in
      match t with
      | Some XDigit => Ok ([], exp_add_digit_r b s fe es e c)
      | Some XTerminal => let! n := exp_state_into_token_r conv b s fe es e in transfer [n]
      | None => invalid
      end
  | _ => push O st c
  end.
(** [end], 143-174 *)
Definition tend_r (conv : conversion) (st : tstate) : outcome (list token) :=
  match st with
  | ParseInt b s => let! n := number_token_r conv b s 0 in Ok [n]
  | ParseFrac b s fe => let! n := number_token_r conv b s fe in Ok [n]
  | ParseExp b s fe es e => let! n := exp_state_into_token_r conv b s fe es e in Ok [n]
  | _ => tend O st
  end.
(** 1034-1081: the iterator, read to its end (that this is one push per character is
    [tokenize_run] for the debug model). *)
Fixpoint run_r (conv : conversion) (st : tstate) (text : list Z) : outcome (list token * tstate) :=
  match text with
  | [] => Ok ([], st)
  | c :: text' => let! (toks, st') := push_r conv st c in prepend toks (run_r conv st' text')
  end.
Definition tokenize_r (conv : conversion) (text : list Z) : outcome (list token) :=
  let! (toks, st) := run_r conv Initial text in let! e := tend_r conv st in Ok (toks ++ e).

(** big_int.rs:66-78: [n * sign as i64], then [as u64]. *)
Definition bi_from_i64_r (n : Z) : bigint :=
  let s := if n <? 0 then Negative else Positive in
  {| bi_sign := s; bi_value := [wrap64 (n * sign_int s) mod B] |}.

(** * Sizes: [usize] modulo 2^64 *)
Definition wrapu (n : Z) : Z := n mod 2 ^ 64.
(** flexible_array/mod.rs:41-44; the header layout depends on the types only and is the same in
    both builds (sizes of types are below 2^63). *)
Definition flexible_size_r (header item : ty) (len : Z) : outcome Z :=
  let! f := flexible_header_layout header item in
  Ok (wrapu (fl_size f + wrapu (len * ty_size item))).
(** field_layout.rs:44-46 *)
Definition field_layout_layout_r (f : field_layout) (a_size : Z) : layout :=
  {| lay_size := wrapu (fl_size f + a_size); lay_align := fl_align f |}.
(** block.rs:12-17 *)
Definition block_layout_r (header obj : ty) (object_align object_size : Z) : outcome layout :=
  let! f := block_header_layout header obj object_align in Ok (field_layout_layout_r f object_size).

(** * Making a flexible array: manager.rs:28-43 with flexible_array/constructor.rs:19-29 and
    mod.rs:46-48.  [bh] is the type of the block header, [header] the type of the array header,
    and [FlexibleArray] has its size and alignment ([#[repr(transparent)]]). *)
Definition array_layout (bh header item : ty) (len : Z) : outcome layout :=
  let! a := flexible_align header item in
  let! n := flexible_size header item len in
  block_layout bh header a n.
Definition array_layout_r (bh header item : ty) (len : Z) : outcome layout :=
  let! a := flexible_align header item in
  let! n := flexible_size_r header item len in
  block_layout_r bh header a n.
(** The distance from the start of the block to its items. *)
Definition items_offset (bh header item : ty) : outcome Z :=
  let! a := flexible_align header item in
  let! b := block_header_layout bh header a in
  let! f := flexible_header_layout header item in
  Ok (fl_size b + fl_size f).
(** The addresses and sizes of all writes, in order: block header, array header, items. *)
Definition array_writes (bh header item : ty) (len p : Z) : outcome (list (Z * Z)) :=
  let! a := flexible_align header item in
  let! b := block_header_layout bh header a in
  let! f := flexible_header_layout header item in
  let o := to_adjacent b p in
  let q := to_adjacent f o in
  Ok ((p, ty_size bh) :: (o, ty_size header) ::
      map (fun i => ((q + Z.of_nat i * ty_size item) mod 2 ^ 64, ty_size item)) (seq 0 (Z.to_nat len))).
(** The global manager, global.rs:22-24: [alloc] is the allocator of the system, which gives the
    address of a block, or null. *)
Definition global_new (alloc : layout -> Z) (bh header item : ty) (len : Z) : outcome (list (Z * Z)) :=
  let! l := array_layout bh header item len in
  array_writes bh header item len (alloc l).
(** The local manager, local.rs:61-68: one more header, the pointer to the manager. *)
Definition local_new (alloc : layout -> Z) (bh header item : ty) (len : Z) : outcome (list (Z * Z)) :=
  let! l := array_layout bh header item len in
  let! (h, l') := local_layout l in
  let! w := array_writes bh header item len (to_adjacent h (alloc l')) in
  Ok ((alloc l', 8) :: w).
