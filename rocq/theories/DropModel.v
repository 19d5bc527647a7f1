(** The parser with its drops.

    [ParserModel.v] leaves out that values are dropped.  For most values this is right: their
    memory is released and nothing is seen of it (C62-C64).  A bigint is different: when the last
    [Any] that refers to it is dropped, [AnyInternal::delete] (js/any_internal.rs 66-74) has no
    case for it and panics (C65).  This file adds these panics to the parser (parser/parser.rs)
    and the converter (app/mod.rs).

    The last reference to a block is dropped exactly when the block is no longer reachable from
    the values that the program holds (C64: allocated = reachable).  So every bigint literal gets
    the identity of its block, and after each step of the parser every block that was held must
    still be held, by the state of the parser, by the module cache, or by the parsers of the
    importing modules, which are suspended meanwhile ([outer]). *)
From Coq Require Import ZArith List Bool.
From Verif Require Import Outcome JsBigintModel TokenizerModel ValueModel ParserModel SerializerModel.
Import ListNotations.
Open Scope Z_scope.

(** The identity of the block of a bigint: the number of the file and of the literal in it.  It is
    put in front of the limbs. *)
Definition block := (Z * Z)%type.
Definition named (f i : Z) (b : jsbigint) : jsbigint := {| jb_len := jb_len b; jb_items := f :: i :: jb_items b |}.
Definition block_of (b : jsbigint) : block := match jb_items b with f :: i :: _ => (f, i) | _ => (0, 0) end.

(** The tokenizer allocates one block for each literal (tokenizer/mod.rs; [JsonToken::BigInt] holds
    a [JsBigintMutRef]). *)
Fixpoint name_tokens (f i : Z) (ts : list token) : list token :=
  match ts with
  | [] => []
  | TBigInt b :: r => TBigInt (named f i b) :: name_tokens f (i + 1) r
  | t :: r => t :: name_tokens f i r
  end.

(** The bigint blocks that are reachable from a value: an [Any], and what its block refers to. *)
Fixpoint held (a : any) : list block :=
  match a with
  | ABigint b => [block_of b]
  | AArray _ l => (fix go (l : list any) := match l with [] => [] | x :: r => held x ++ go r end) l
  | AObject _ l => (fix go (l : list (list Z * any)) := match l with [] => [] | (_, x) :: r => held x ++ go r end) l
  | _ => []
  end.
Definition held_list (l : list any) : list block := flat_map held l.
Definition held_map (m : list (list Z * any)) : list block := flat_map (fun kv => held (snd kv)) m.

(** ... from an element under construction (shared.rs 107-121) and from the states of the parser
    (any_state.rs 27-33, root_state.rs 20-24, const_state.rs 8-11, json_state.rs 9-15). *)
Definition held_element (e : stack_element) : list block :=
  match e with StObject m _ => held_map m | StArray l => held_list l end.
Definition held_current (e : json_element) : list block :=
  match e with JNone => [] | JStack e => held_element e | JAny a => held a end.
Definition held_state (s : any_state) : list block :=
  held_current (as_current s) ++ flat_map held_element (as_stack s) ++ held_map (as_consts s).
Definition held_json (j : json_state) : list block :=
  match j with
  | PRoot r => held_state (rs_state r)
  | PConst _ s | PModule s => held_state s
  | PResult _ v => held v
  | PError _ => []
  end.
(** ... from the module cache (shared.rs 93-96), and from a result. *)
Definition held_cache (c : context) : list block := held_map (cx_complete c).
Definition held_result (r : data_type * any + parse_error) : list block :=
  match r with inl (_, v) => held v | inr _ => [] end.

(** No block of [before] is released when [after] is what remains. *)
Definition block_eqb (a b : block) : bool := (fst a =? fst b) && (snd a =? snd b).
Definition kept (before after : list block) : bool := forallb (fun x => existsb (block_eqb x) after) before.

(** A token that is not made a value is dropped as a [MutRef] of a bigint, which does not panic
    (mut_ref.rs 41-48); a token that is made a value is in the next state ([push_value]).  While
    a module is imported the state [j] waits. *)
Definition d_push (load : list block -> loader) (outer : list block) (j : json_state) (c : context) (t : token) : outcome (json_state * context) :=
  let! (j', c') := cx_push (load (held_json j ++ outer)) j c t in
  if kept (held_json j ++ held_cache c) (held_json j' ++ held_cache c' ++ outer) then Ok (j', c') else Panic.

Fixpoint d_push_all (load : list block -> loader) (outer : list block) (j : json_state) (c : context) (ts : list token) : outcome (json_state * context) :=
  match ts with
  | [] => Ok (j, c)
  | t :: ts' => let! (j', c') := d_push load outer j c t in d_push_all load outer j' c' ts'
  end.

(** [parse_with_tokens], parser.rs 239-252: [state.end()] drops every state but a result. *)
Definition d_tokens_with (load : list block -> loader) (outer : list block) (c : context) (ts : list token) : outcome (context * (data_type * any + parse_error)) :=
  let! (j, c') := d_push_all load outer (root QInitial any_default true) c ts in
  if kept (held_json j) (held_result (json_end j) ++ held_cache c' ++ outer) then Ok (c', json_end j) else Panic.

Section Import.
Variable io : list Z -> option (list Z).
Variable tfuel : nat.

(** [import_with] of the parser model (parser.rs 90-124 and 162-198): [complete.insert] would drop
    a value that it replaces. *)
Definition d_import_with (sub : context -> list token -> outcome (context * (data_type * any + parse_error))) (outer : list block) : loader :=
  fun c m =>
    let p := path_concat (fst (path_split (cx_path c))) m in
    match bt_get (cx_complete c) p with
    | Some a => Ok (c, inl a)
    | None =>
        if bs_contains (cx_progress c) p then Ok (c, inr CircularDependency)
        else
          let c1 := cx_reading c p in
          match io p with
          | None => Ok (c1, inr CannotReadFile)
          | Some text =>
              let! ts := tokenize tfuel text in
              let! (c2, r) := sub c1 ts in
              match r with
              | inl (_, v) =>
                  if kept (held_cache c2) (held_cache (cx_loaded c2 p v) ++ outer) then Ok (cx_loaded c2 p v, inl v) else Panic
              | inr e => Ok (c2, inr e)
              end
          end
    end.

(** [parse_with_tokens] on the tokens of the file that was read last. *)
Fixpoint d_parse_tokens (depth : nat) (outer : list block) (c : context) (ts : list token) : outcome (context * (data_type * any + parse_error)) :=
  match depth with
  | O => NoFuel
  | S d => d_tokens_with (fun o => d_import_with (d_parse_tokens d o) o) outer c (name_tokens (Z.of_nat (length (cx_log c))) 0 ts)
  end.

(** [parse], 225-237. *)
Definition d_parse (depth : nat) (c : context) : outcome (context * (data_type * any + parse_error)) :=
  let c1 := cx_reading c (cx_path c) in
  match io (cx_path c) with
  | None => Ok (c1, inr CannotReadFile)
  | Some text => let! ts := tokenize tfuel text in d_parse_tokens depth [] c1 ts
  end.
End Import.

(** [run], app/mod.rs 14-53: how it ends, and the files after it.  The value is dropped by the
    serializer (to_json.rs 126-133, to_djs.rs 188-192), the module cache at the end of [run], after
    the output has been written. *)
Section Run.
Variable show : Z -> list Z.
Variable peek : list (Z * any) -> option any.
Variable disk : list Z -> list Z -> write_result.
Variable tfuel depth cfuel : nat.

Definition at_end (h : list block) (r : option run_error) : outcome (option run_error) :=
  match h with [] => Ok r | _ => Panic end.
Definition stop {A} (o : outcome A) : outcome (option run_error) :=
  match o with NoFuel => NoFuel | _ => Panic end.

Definition d_serialize (dt : data_type) (v : any) : outcome (list Z) :=
  match dt with
  | Json => to_json show v
  | Cjs => to_djs show peek cfuel v true
  | Mjs => to_djs show peek cfuel v false
  | Djs => Panic
  end.

Definition d_run (args : list (list Z)) (io : fs) : outcome (option run_error) * fs :=
  match args with
  | _ :: input :: output :: _ =>
      match file_to_data_type output with
      | None => (Ok (Some BadExtension), io)
      | Some dt =>
          match d_parse io tfuel depth {| cx_next := 0; cx_path := input; cx_complete := []; cx_progress := []; cx_log := [] |} with
          | Ok (c, inr e) => (at_end (held_cache c) (Some (ParseFailed e)), io)
          | Ok (c, inl (_, v)) =>
              match d_serialize dt v with
              | Ok s =>
                  match kept (held v) (held_cache c), write_out disk io output s with
                  | true, Ok (r, io') => (at_end (held_cache c) r, io')
                  | _, _ => (Panic, io)
                  end
              | o => (stop o, io)
              end
          | o => (stop o, io)
          end
      end
  | _ => (Panic, io)
  end.
End Run.
