(** Model of nanvm-lib/src/range_map.rs.  Keys are integers (the code uses it with [char]
    keys, which are ordered by code point); Rust's [PartialOrd] is the integer order here.
    [StaticRefDefault] of [State<T>] is [None] (range_map.rs:32-34). *)
From Coq Require Import ZArith List Bool.
From Verif Require Import Outcome.
Import ListNotations.
Open Scope Z_scope.

Section RangeMap.
Context {T : Type}.

(** range_map.rs:8-21, a list of entries; [State<T>] (27-30) is [option T]. *)
Notation range_map := (list (Z * option T)).

(** [as i32] *)
Definition as_i32 (n : Z) : Z := (n + 2 ^ 31) mod 2 ^ 32 - 2 ^ 31.

(** range_map.rs:66-80, the loop; [self.list.get(i as usize).unwrap()].  [b + ((e-b)>>1)]
    stays between b and e, so no i32 overflow is modelled. *)
Fixpoint get_loop (fuel : nat) (m : range_map) (len key b e : Z) : outcome (option T) :=
  match fuel with
  | O => NoFuel
  | S fuel' =>
      if len <=? b then Ok None else
      if e <? b then
        match nth_error m (Z.to_nat b) with Some (_, v) => Ok v | None => Panic end
      else
      let mid := b + Z.shiftr (e - b) 1 in
      match nth_error m (Z.to_nat mid) with
      | None => Panic
      | Some (k, _) =>
          if key <=? k then get_loop fuel' m len key b (mid - 1)
          else get_loop fuel' m len key (mid + 1) e
      end
  end.

(** range_map.rs:62-81; the fuel is proved sufficient. *)
Definition rm_get (m : range_map) (key : Z) : outcome (option T) :=
  let len := as_i32 (Z.of_nat (length m)) in
  get_loop (S (length m)) m len key 0 (len - 1).

(** [Eq] of the value type *)
Context (eqb : T -> T -> bool).

(** range_map.rs:36-55 *)
Definition union (a b : option T) : outcome (option T) :=
  match a with
  | Some x => match b with
              | Some y => if eqb x y then Ok (Some y) else Panic
              | None => Ok (Some x)
              end
  | None => Ok b
  end.

(** range_map.rs:107-164: [a] and [b] are the remaining entries, the heads being [next_a]
    and [next_b]. *)
Fixpoint merge_iter (a : range_map) : range_map -> outcome range_map :=
  fix go (b : range_map) : outcome range_map :=
    match a, b with
    | (ka, va) :: a', (kb, vb) :: b' =>
        let! v := union va vb in
        if kb <? ka then let! r := go b' in Ok ((kb, v) :: r)
        else if ka <? kb then let! r := merge_iter a' b in Ok ((ka, v) :: r)
        else let! r := merge_iter a' b' in Ok ((ka, v) :: r)
    | _, [] => Ok a
    | [], _ => Ok b
    end.

(** range_map.rs:97-105 *)
Definition merge (a b : range_map) : outcome range_map := merge_iter a b.

(** range_map.rs:84-95 *)
Fixpoint merge_fold (l : list range_map) (result : range_map) : outcome range_map :=
  match l with
  | [] => Ok result
  | x :: l' => let! r := merge x result in merge_fold l' r
  end.
Definition merge_list (l : list range_map) : outcome range_map := merge_fold l [].

(** [char::from_u32] *)
Definition is_char (n : Z) : bool :=
  (0 <=? n) && (n <? 0xD800) || (0xE000 <=? n) && (n <=? 0x10FFFF).
Definition from_u32 (n : Z) : option Z := if is_char n then Some n else None.

(** range_map.rs:166-180; [start as u32 - 1] underflows (panics) for '\0'. *)
Definition from_range (start fin : Z) (v : T) : outcome range_map :=
  if start =? 0 then Panic else
  Ok [ (match from_u32 (start - 1) with Some p => p | None => start end, None); (fin, Some v) ].

(** range_map.rs:182-203 *)
Definition from_one (c : Z) (v : T) : outcome range_map :=
  if c =? 0 then Panic else
  Ok (match from_u32 (c - 1) with
      | Some p => [ (p, None); (c, Some v) ]
      | None => [ (c, Some v) ]
      end).

End RangeMap.
