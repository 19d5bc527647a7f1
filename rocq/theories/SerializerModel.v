(** Model of nanvm-lib/src/serializer/{to_json,to_djs}.rs and nanvm-lib/src/app/mod.rs.

    Output is a list of characters (code points).  Writing to a [String] never fails, so
    [fmt::Result] is dropped and [outcome] only records panics.  [f64::to_string] belongs to
    the Rust standard library: it is the parameter [show].  [HashMap<Any, _>] compares the 64
    bits of the value, that is, the identity of the block for arrays and objects: maps are
    association lists keyed by block identity; which key [hash_map.iter().next()] yields is
    the parameter [peek]. *)
From Coq Require Import ZArith List Bool String NArith Decimal DecimalN.
From Verif Require Import Outcome JsBigintModel TokenizerModel TokenizerSpec ValueModel ParserModel.
Import ListNotations.
Open Scope Z_scope.

(** [for x in l { ys.push(f(x)?) }] and [for x in l { f(x)? }], as used below. *)
Definition omap {A B} (f : A -> outcome B) : list A -> outcome (list B) :=
  fix go (l : list A) : outcome (list B) :=
    match l with [] => Ok [] | x :: r => let! y := f x in let! ys := go r in Ok (y :: ys) end.
Definition oeach {A S} (f : A -> S -> outcome S) : list A -> S -> outcome S :=
  fix go (l : list A) (s : S) : outcome S :=
    match l with [] => Ok s | x :: r => let! s' := f x s in go r s' end.

(** * to_json.rs *)

(** [write_u4_hex], 23-25. *)
Definition u4_hex (v : Z) : Z := nth (Z.to_nat (Z.land v 15)) (txt "0123456789ABCDEF"%string) 0.

(** [write_js_escape], 27-33. *)
Definition js_escape (c : Z) : list Z :=
  [92; 117; u4_hex (Z.shiftr c 12); u4_hex (Z.shiftr c 8); u4_hex (Z.shiftr c 4); u4_hex c].

(** The loop body of [write_js_string], 39-54. *)
Definition js_char (c : Z) : list Z :=
  if c <? 0x80 then
    if c =? 92 then [92; 92]
    else if c =? 34 then [92; 34]
    else if c =? 8 then [92; 98]
    else if c =? 12 then [92; 102]
    else if c =? 10 then [92; 110]
    else if c =? 13 then [92; 114]
    else if c =? 9 then [92; 116]
    else if c <? 0x20 then js_escape c
    else [c]
  else js_escape c.

(** [write_js_string], 36-56. *)
Definition js_string (s : list Z) : list Z := 34 :: flat_map js_char s ++ [34].

(** [write_list], 58-73: items already written. *)
Fixpoint commas (items : list (list Z)) : list Z :=
  match items with
  | [] => []
  | [x] => x
  | x :: r => x ++ 44 :: commas r
  end.
Definition write_list (open close : Z) (items : list (list Z)) : list Z := open :: commas items ++ [close].

Section Json.
Variable show : Z -> list Z.   (* f64::to_string *)

(** [write_json], 75-90. *)
Fixpoint write_json (a : any) : outcome (list Z) :=
  match a with
  | ANumber f => Ok (show f)
  | ANull => Ok (txt "null")
  | ABool b => Ok (if b then txt "true" else txt "false")
  | AString s => Ok (js_string s)
  | AObject _ l =>
      let! items := omap (fun kv => let! t := write_json (snd kv) in Ok (js_string (fst kv) ++ 58 :: t)) l in
      Ok (write_list 123 125 items)
  | AArray _ l =>
      let! items := omap write_json l in
      Ok (write_list 91 93 items)
  | ABigint _ => Panic   (* todo!() *)
  end.

(** [to_json], 95-99. *)
Definition to_json := write_json.

(** * to_djs.rs *)

Fixpoint find_id {V} (m : list (Z * V)) (i : Z) : option V :=
  match m with [] => None | (j, v) :: m' => if i =? j then Some v else find_id m' i end.
Definition remove_id {V} (m : list (Z * V)) (i : Z) : list (Z * V) := filter (fun jv => negb (fst jv =? i)) m.

(** [ConstTracker::is_visited], 39-48: the entry of a visited block becomes [Repeatedly]
    ([true]). *)
Definition visited := list (Z * (any * bool)).
Definition mark (m : visited) (i : Z) : visited :=
  map (fun jv => if fst jv =? i then (fst jv, (fst (snd jv), true)) else jv) m.

(** [track_consts_for_any], 53-63. *)
Fixpoint track (a : any) (m : visited) : visited :=
  match a with
  | AArray i l =>
      match find_id m i with
      | Some _ => mark m i
      | None =>
          fold_left (fun m x => track x m) l (m ++ [(i, (a, false))])
      end
  | AObject i l =>
      match find_id m i with
      | Some _ => mark m i
      | None =>
          fold_left (fun m kv => track (snd kv) m) l (m ++ [(i, (a, false))])
      end
  | _ => m
  end.

(** [usize::to_string] *)
Fixpoint uint_text (d : Decimal.uint) : list Z :=
  match d with
  | Nil => [] | D0 d => 48 :: uint_text d | D1 d => 49 :: uint_text d | D2 d => 50 :: uint_text d
  | D3 d => 51 :: uint_text d | D4 d => 52 :: uint_text d | D5 d => 53 :: uint_text d | D6 d => 54 :: uint_text d
  | D7 d => 55 :: uint_text d | D8 d => 56 :: uint_text d | D9 d => 57 :: uint_text d
  end.
Definition usize_text (n : nat) : list Z := uint_text (N.to_uint (N.of_nat n)).
(** [_n] *)
Definition const_name (n : nat) : list Z := 95 :: usize_text n.

(** [write_with_const_refs], 124-162. *)
Fixpoint with_refs (refs : list (Z * nat)) (a : any) : outcome (list Z) :=
  match a with
  | AObject i l =>
      match find_id refs i with
      | Some n => Ok (const_name n)
      | None =>
          let! items := omap (fun kv => let! t := with_refs refs (snd kv) in Ok (js_string (fst kv) ++ 58 :: t)) l in
          Ok (write_list 123 125 items)
      end
  | AArray i l =>
      match find_id refs i with
      | Some n => Ok (const_name n)
      | None =>
          let! items := omap (with_refs refs) l in
          Ok (write_list 91 93 items)
      end
  | _ => write_json a
  end.

(** Output, constants to be written, constants written. *)
Record djs := { dj_out : list Z; dj_todo : list (Z * any); dj_refs : list (Z * nat) }.

(** The second half of [write_compound_const], 74-84. *)
Definition define_const (i : Z) (a : any) (s : djs) : outcome djs :=
  match find_id (dj_todo s) i with
  | Some _ =>
      let id := List.length (dj_refs s) in
      let! body := with_refs (dj_refs s) a in
      Ok {| dj_out := dj_out s ++ txt "const " ++ const_name id ++ 61 :: body ++ [59];
            dj_todo := remove_id (dj_todo s) i;
            dj_refs := (i, id) :: dj_refs s |}
  | None => Ok s
  end.

(** [write_consts_and_any], 90-103, with [write_compound_const], 67-85. *)
Fixpoint consts_and_any (a : any) (s : djs) : outcome djs :=
  match a with
  | AArray i l =>
      let! s' := oeach consts_and_any l s in
      define_const i a s'
  | AObject i l =>
      let! s' := oeach (fun kv => consts_and_any (snd kv)) l s in
      define_const i a s'
  | _ => Ok s
  end.

(** [peek], 107-109: some key of a non-empty map. *)
Variable peek : list (Z * any) -> option any.

(** [write_consts], 112-121: the loop; fuel bounds the iterations. *)
Fixpoint write_consts (fuel : nat) (s : djs) : outcome djs :=
  match peek (dj_todo s) with
  | None => Ok s
  | Some a => match fuel with
              | O => NoFuel
              | S f => let! s' := consts_and_any a s in write_consts f s'
              end
  end.

(** [write_djs], 167-183, and [to_djs], 188-192. *)
Definition to_djs (fuel : nat) (a : any) (common_js : bool) : outcome (list Z) :=
  let todo := map (fun jv => (fst jv, fst (snd jv))) (filter (fun jv => snd (snd jv)) (track a [])) in
  let! s := write_consts fuel {| dj_out := []; dj_todo := todo; dj_refs := [] |} in
  let! body := with_refs (dj_refs s) a in
  Ok (dj_out s ++ (if common_js then txt "module.exports=" else txt "export default ") ++ body).
End Json.

(** * app/mod.rs *)
Definition ends_with (s suffix : list Z) : bool :=
  (List.length suffix <=? List.length s)%nat && str_eqb (skipn (List.length s - List.length suffix) s) suffix.

(** [file_to_data_type], 55-66. *)
Definition file_to_data_type (s : list Z) : option data_type :=
  if ends_with s (txt ".json") then Some Json
  else if ends_with s (txt ".d.cjs") then Some Cjs
  else if ends_with s (txt ".d.mjs") then Some Mjs
  else None.

(** Results of [run]: the error that is reported. *)
Inductive run_error := BadExtension | ParseFailed (e : parse_error) | WriteFailed.

(** [run], 14-53.  A file system maps paths to texts.  [io.write] replaces one text, or fails
    and leaves the file in some state: [disk path text] says which of the two happens.  The
    result pairs what [run] returns with the files after it. *)
Definition fs := list Z -> option (list Z).
Inductive write_result := Written | NotWritten (kept : option (list Z)).
Definition fs_put (io : fs) (p : list Z) (content : option (list Z)) : fs :=
  fun q => if list_eq_dec Z.eq_dec q p then content else io q.

Section Run.
Variable show : Z -> list Z.
Variable peek : list (Z * any) -> option any.
Variable disk : list Z -> list Z -> write_result.
Variable tfuel depth cfuel : nat.

(** [io.write(&output, s.as_bytes())]: its result is the result of [run] (30, 37, 44). *)
Definition write_out (io : fs) (output s : list Z) : outcome (option run_error * fs) :=
  match disk output s with
  | Written => Ok (None, fs_put io output (Some s))
  | NotWritten kept => Ok (Some WriteFailed, fs_put io output kept)
  end.

Definition app_run (args : list (list Z)) (io : fs) : outcome (option run_error * fs) :=
  match args with
  | _ :: input :: output :: _ =>
      match file_to_data_type output with
      | None => Ok (Some BadExtension, io)
      | Some dt =>
          let! (_, r) := parse io tfuel depth
            {| cx_next := 0; cx_path := input; cx_complete := []; cx_progress := []; cx_log := [] |} in
          match r with
          | inr e => Ok (Some (ParseFailed e), io)
          | inl (_, v) =>
              match dt with
              | Json => let! s := to_json show v in write_out io output s
              | Cjs => let! s := to_djs show peek cfuel v true in write_out io output s
              | Mjs => let! s := to_djs show peek cfuel v false in write_out io output s
              | Djs => Panic   (* unreachable!() *)
              end
          end
      end
  | _ => Panic   (* unwrap on a missing argument *)
  end.
End Run.
