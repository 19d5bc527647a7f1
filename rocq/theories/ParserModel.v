(** Model of the parser: nanvm-lib/src/parser (shared.rs, any_state.rs, const_state.rs,
    json_state.rs, root_state.rs, parser.rs, path.rs).

    The memory manager is a counter of allocated blocks (every [new_array]/[new_object]
    returns a fresh identity).  The file system is a function from paths to texts
    ([Io::read_to_string]; reading does not change it).  Import recursion takes [depth]
    (nesting of imports); the tokenizer takes its own fuel. *)
From Coq Require Import ZArith List Bool String.
From Verif Require Import Outcome JsBigintModel TokenizerModel TokenizerSpec ValueModel.
Import ListNotations.
Open Scope Z_scope.

(** * path.rs *)

(** [path.split('/')], 4. *)
Fixpoint split_slash (l : list Z) : list (list Z) :=
  match l with
  | [] => [[]]
  | c :: r =>
      if c =? 47 then [] :: split_slash r
      else match split_slash r with h :: t => (c :: h) :: t | [] => [[c]] end
  end.

Definition dotdot : list Z := [46; 46].
Definition str_eqb (a b : list Z) : bool := match str_cmp a b with Eq => true | _ => false end.

(** Loop body of [normalize], 6-24.  The result vector is kept in reverse (last first). *)
Definition normalize_step (res : list (list Z)) (dir : list Z) : list (list Z) :=
  if str_eqb dir [] then res
  else if str_eqb dir dotdot then
    match res with
    | x :: res' => if negb (str_eqb x dotdot) then res' else dir :: res
    | [] => dir :: res
    end
  else dir :: res.

(** [join("/")], 25. *)
Fixpoint join_slash (l : list (list Z)) : list Z :=
  match l with
  | [] => []
  | [x] => x
  | x :: l' => x ++ 47 :: join_slash l'
  end.

(** [normalize], 3-26. *)
Definition normalize (path : list Z) : list Z :=
  join_slash (rev (fold_left normalize_step (split_slash path) [])).

(** [concat], 28-33. *)
Definition path_concat (a b : list Z) : list Z := normalize (a ++ 47 :: b).

(** [rsplit_once('/')] *)
Fixpoint rsplit_once (l : list Z) : option (list Z * list Z) :=
  match l with
  | [] => None
  | c :: r =>
      match rsplit_once r with
      | Some (a, b) => Some (c :: a, b)
      | None => if c =? 47 then Some ([], r) else None
      end
  end.

(** [split], 35-40. *)
Definition path_split (path : list Z) : list Z * list Z :=
  match rsplit_once path with None => ([], path) | Some t => t end.

(** * shared.rs *)

(** 16-23 *)
Inductive data_type := Json | Djs | Cjs | Mjs.
(** [is_djs], 34-36. *)
Definition is_djs (d : data_type) : bool := match d with Djs | Cjs | Mjs => true | Json => false end.
(** [is_cjs_compatible], 38-40. *)
Definition is_cjs_compatible (d : data_type) : bool := match d with Json | Djs | Cjs => true | Mjs => false end.
(** [is_mjs_compatible], 42-44. *)
Definition is_mjs_compatible (d : data_type) : bool := match d with Json | Djs | Mjs => true | Cjs => false end.
(** derived [PartialEq] *)
Definition is_cjs (d : data_type) : bool := match d with Cjs => true | _ => false end.

(** [ParsingStatus], 47-62. *)
Inductive parsing_status :=
| SInitial | SArrayBegin | SArrayValue | SArrayComma
| SObjectBegin | SObjectKey | SObjectColon | SObjectValue | SObjectComma
| SImportBegin | SImportValue | SImportEnd.

(** [ParseError], 64-75. *)
Inductive parse_error :=
| UnexpectedToken | UnexpectedEnd | WrongExportStatement | WrongConstStatement | WrongRequireStatement
| WrongImportStatement | CannotReadFile | CircularDependency | NewLineExpected.

(** [JsonStackElement], [JsonStackObject], [JsonElement], 107-121. *)
Inductive stack_element :=
| StObject (map : list (list Z * any)) (key : list Z)
| StArray (items : list any).
Inductive json_element := JNone | JStack (e : stack_element) | JAny (a : any).

Definition id_null := txt "null"%string.
Definition id_true := txt "true"%string.
Definition id_false := txt "false"%string.
Definition id_require := txt "require"%string.
Definition id_const := txt "const"%string.
Definition id_export := txt "export"%string.
Definition id_default := txt "default"%string.
Definition id_module := txt "module"%string.
Definition id_exports := txt "exports"%string.
Definition id_import := txt "import"%string.
Definition id_from := txt "from"%string.

(** [try_id_to_any], 141-153. *)
Definition try_id_to_any (s : list Z) (consts : list (list Z * any)) : option any :=
  if str_eqb s id_null then Some ANull
  else if str_eqb s id_true then Some (ABool true)
  else if str_eqb s id_false then Some (ABool false)
  else bt_get consts s.

(** [try_to_any], 156-168. *)
Definition try_to_any (t : token) (consts : list (list Z * any)) : option any :=
  match t with
  | TNumber f => Some (ANumber f)
  | TString s => Some (AString (utf16 s))
  | TId s => try_id_to_any s consts
  | TBigInt b => Some (ABigint b)
  | _ => None
  end.

(** * any_state.rs *)

(** 27-33; the stack is kept in reverse (innermost first). *)
Record any_state := {
  as_type : data_type; as_status : parsing_status; as_current : json_element;
  as_stack : list stack_element; as_consts : list (list Z * any) }.

(** [Default], 35-45. *)
Definition any_default : any_state :=
  {| as_type := Json; as_status := SInitial; as_current := JNone; as_stack := []; as_consts := [] |}.

Definition set_type (s : any_state) (d : data_type) : any_state :=
  {| as_type := d; as_status := as_status s; as_current := as_current s; as_stack := as_stack s; as_consts := as_consts s |}.
Definition set_status (s : any_state) (x : parsing_status) : any_state :=
  {| as_type := as_type s; as_status := x; as_current := as_current s; as_stack := as_stack s; as_consts := as_consts s |}.
Definition set_current (s : any_state) (x : json_element) : any_state :=
  {| as_type := as_type s; as_status := as_status s; as_current := x; as_stack := as_stack s; as_consts := as_consts s |}.
Definition set_stack (s : any_state) (x : list stack_element) : any_state :=
  {| as_type := as_type s; as_status := as_status s; as_current := as_current s; as_stack := x; as_consts := as_consts s |}.
Definition set_consts (s : any_state) (x : list (list Z * any)) : any_state :=
  {| as_type := as_type s; as_status := as_status s; as_current := as_current s; as_stack := as_stack s; as_consts := x |}.

(** [AnyResult], [AnySuccess], 16-25. *)
Inductive any_result := RContinue (s : any_state) | RSuccess (s : any_state) (v : any) | RError (e : parse_error).

(** [push_value], 209-242. *)
Definition push_value (s : any_state) (v : any) : outcome any_result :=
  match as_current s with
  | JNone => Ok (RSuccess (set_status s SInitial) v)
  | JStack (StArray arr) =>
      Ok (RContinue (set_current (set_status s SArrayValue) (JStack (StArray (arr ++ [v])))))
  | JStack (StObject map key) =>
      Ok (RContinue (set_current (set_status s SObjectValue) (JStack (StObject (bt_insert map key v) []))))
  | JAny _ => Panic   (* todo!() *)
  end.

(** [push_key], 244-259. *)
Definition push_key (s : any_state) (k : list Z) : any_result :=
  match as_current s with
  | JStack (StObject map _) => RContinue (set_current (set_status s SObjectKey) (JStack (StObject map k)))
  | _ => RError UnexpectedToken
  end.

(** The pushes of [begin_array] 306-309, [begin_object] 375-377, [begin_import] 163-165. *)
Definition pushed_stack (s : any_state) : list stack_element :=
  match as_current s with JStack top => top :: as_stack s | _ => as_stack s end.

(** [begin_array], 305-315. *)
Definition begin_array (s : any_state) : any_result :=
  RContinue {| as_type := as_type s; as_status := SArrayBegin; as_current := JStack (StArray []);
               as_stack := pushed_stack s; as_consts := as_consts s |}.
(** [begin_object], 370-383. *)
Definition begin_object (s : any_state) : any_result :=
  RContinue {| as_type := as_type s; as_status := SObjectBegin; as_current := JStack (StObject [] []);
               as_stack := pushed_stack s; as_consts := as_consts s |}.
(** [begin_import], 162-172. *)
Definition begin_import (s : any_state) : any_result :=
  RContinue {| as_type := Cjs; as_status := SImportBegin; as_current := JNone;
               as_stack := pushed_stack s; as_consts := as_consts s |}.

(** [self.stack.pop()] into the current element: [end_array] 321-325, [end_object] 394-398,
    [end_import] 177-180. *)
Definition popped (s : any_state) : any_state :=
  match as_stack s with
  | e :: st => set_stack (set_current s (JStack e)) st
  | [] => set_current s JNone
  end.

(** Operations that allocate take and return the manager's block counter. *)
Definition ores := outcome (any_result * Z).
Definition pure (n : Z) (r : any_result) : ores := Ok (r, n).
Definition opure (n : Z) (o : outcome any_result) : ores := let! r := o in Ok (r, n).

(** [end_array], 317-330. *)
Definition end_array (s : any_state) (n : Z) : ores :=
  match as_current s with
  | JStack (StArray arr) => opure (n + 1) (push_value (popped s) (AArray n arr))
  | _ => Panic   (* unreachable!() *)
  end.
(** [end_object], 385-403. *)
Definition end_object (s : any_state) (n : Z) : ores :=
  match as_current s with
  | JStack (StObject map _) =>
      opure (n + 1) (push_value (popped s) (AObject n (List.map (fun kv => (utf16 (fst kv), snd kv)) map)))
  | _ => Panic
  end.
(** [end_import], 174-190. *)
Definition end_import (s : any_state) : outcome any_result :=
  match as_current s with
  | JAny a => push_value (popped (set_status s SInitial)) a
  | _ => Panic
  end.

(** The default branch shared by the value positions, e.g. 199-205. *)
Definition parse_scalar (s : any_state) (t : token) : outcome any_result :=
  match try_to_any t (as_consts s) with
  | Some a => push_value s a
  | None => Ok (RError UnexpectedToken)
  end.

(** [parse_value], 192-207. *)
Definition parse_value (s : any_state) (t : token) : outcome any_result :=
  match t with
  | TArrayBegin => Ok (begin_array s)
  | TObjectBegin => Ok (begin_object s)
  | TId i => if is_cjs_compatible (as_type s) && str_eqb i id_require then Ok (begin_import s)
             else parse_scalar s t
  | _ => parse_scalar s t
  end.
(** [parse_array_comma], 261-277. *)
Definition parse_array_comma (s : any_state) (n : Z) (t : token) : ores :=
  match t with
  | TArrayBegin => pure n (begin_array s)
  | TObjectBegin => pure n (begin_object s)
  | TId i => if is_cjs (as_type s) && str_eqb i id_require then pure n (begin_import s)
             else opure n (parse_scalar s t)
  | TArrayEnd => end_array s n
  | _ => opure n (parse_scalar s t)
  end.
(** [parse_array_begin], 279-292. *)
Definition parse_array_begin (s : any_state) (n : Z) (t : token) : ores :=
  match t with
  | TArrayBegin => pure n (begin_array s)
  | TArrayEnd => end_array s n
  | TObjectBegin => pure n (begin_object s)
  | _ => opure n (parse_scalar s t)
  end.
(** [parse_array_value], 294-303. *)
Definition parse_array_value (s : any_state) (n : Z) (t : token) : ores :=
  match t with
  | TArrayEnd => end_array s n
  | TComma => pure n (RContinue (set_status s SArrayComma))
  | _ => pure n (RError UnexpectedToken)
  end.
(** [parse_object_begin], 332-339. *)
Definition parse_object_begin (s : any_state) (n : Z) (t : token) : ores :=
  match t with
  | TString k => pure n (push_key s k)
  | TId k => pure n (if is_djs (as_type s) then push_key s k else RError UnexpectedToken)
  | TObjectEnd => end_object s n
  | _ => pure n (RError UnexpectedToken)
  end.
(** [parse_object_next], 341-350. *)
Definition parse_object_next (s : any_state) (n : Z) (t : token) : ores :=
  match t with
  | TObjectEnd => end_object s n
  | TComma => pure n (RContinue (set_status s SObjectComma))
  | _ => pure n (RError UnexpectedToken)
  end.
(** [parse_object_comma], 352-358. *)
Definition parse_object_comma (s : any_state) (n : Z) (t : token) : ores :=
  match t with
  | TString k => pure n (push_key s k)
  | TObjectEnd => end_object s n
  | _ => pure n (RError UnexpectedToken)
  end.
(** [parse_object_key], 360-368. *)
Definition parse_object_key (s : any_state) (t : token) : any_result :=
  match t with
  | TColon => RContinue (set_status s SObjectColon)
  | _ => RError UnexpectedToken
  end.
(** [parse_import_begin], 126-134. *)
Definition parse_import_begin (s : any_state) (t : token) : any_result :=
  match t with
  | TOpenPar => RContinue (set_status s SImportValue)
  | _ => RError WrongRequireStatement
  end.
(** [parse_import_end], 136-141. *)
Definition parse_import_end (s : any_state) (t : token) : outcome any_result :=
  match t with
  | TClosePar => end_import s
  | _ => Ok (RError WrongRequireStatement)
  end.
(** [AnyState::parse_import_value], 143-160 (without context: the module name is returned). *)
Definition parse_import_value (s : any_state) (t : token) : any_result * option (list Z) :=
  match t with
  | TString m => (RContinue (set_status s SImportEnd), Some m)
  | _ => (RError WrongRequireStatement, None)
  end.

(** Every status except [ImportValue], common to [AnyState::parse] (any_state.rs 70-93) and
    [any_state_parse] (parser.rs 130-150). *)
Definition any_parse_common (s : any_state) (n : Z) (t : token) : ores :=
  match as_status s with
  | SInitial | SObjectColon => opure n (parse_value s t)
  | SArrayBegin => parse_array_begin s n t
  | SArrayValue => parse_array_value s n t
  | SArrayComma => parse_array_comma s n t
  | SObjectBegin => parse_object_begin s n t
  | SObjectKey => pure n (parse_object_key s t)
  | SObjectValue => parse_object_next s n t
  | SObjectComma => parse_object_comma s n t
  | SImportBegin => pure n (parse_import_begin s t)
  | SImportEnd => opure n (parse_import_end s t)
  | SImportValue => Panic   (* not reached: both callers treat this status *)
  end.

(** [AnyState::parse], any_state.rs 70-93. *)
Definition any_parse (s : any_state) (n : Z) (t : token) : outcome (any_result * option (list Z) * Z) :=
  match as_status s with
  | SImportValue => let (r, m) := parse_import_value s t in Ok (r, m, n)
  | _ => let! (r, n') := any_parse_common s n t in Ok (r, None, n')
  end.

(** * json_state.rs, root_state.rs, const_state.rs *)

(** [RootStatus], root_state.rs 6-18. *)
Inductive root_status :=
| QInitial | QExport | QModule | QModuleDot | QModuleDotExports | QConst | QConstId (s : list Z)
| QImport | QImportId (s : list Z) | QImportIdFrom (s : list Z).
(** [RootState], 20-24. *)
Record root_state := { rs_status : root_status; rs_state : any_state; rs_new_line : bool }.
(** [JsonState], json_state.rs 9-15; [ConstState], const_state.rs 8-11. *)
Inductive json_state :=
| PRoot (r : root_state)
| PConst (key : list Z) (s : any_state)
| PModule (s : any_state)
| PResult (d : data_type) (v : any)
| PError (e : parse_error).

(** [parse_for_module], any_state.rs 95-124. *)
Definition parse_for_module (s : any_state) (n : Z) (t : token) : outcome (json_state * option (list Z) * Z) :=
  let! (rm, n') := any_parse s n t in
  let '(r, m) := rm in
  match m with
  | Some m => match r with RContinue s' => Ok (PModule s', Some m, n') | _ => Panic end
  | None =>
      Ok (match r with
          | RContinue s' => PModule s'
          | RSuccess s' v => PResult (as_type s') v
          | RError e => PError e
          end, None, n')
  end.

Definition root (q : root_status) (s : any_state) (nl : bool) : json_state :=
  PRoot {| rs_status := q; rs_state := s; rs_new_line := nl |}.

(** [RootState::parse], root_state.rs 26-191: new state, optional import (id, module). *)
Definition root_parse (r : root_state) (n : Z) (t : token) : outcome (json_state * option (list Z * list Z) * Z) :=
  let s := rs_state r in
  let go q s := Ok (root q s false, None, n) in
  let bad e := Ok (PError e, None, n) in
  match rs_status r with
  | QInitial =>
      match t with
      | TNewLine => Ok (root QInitial s true, None, n)
      | _ =>
          if rs_new_line r then
            let value := let! (jm, n') := parse_for_module s n t in Ok (fst jm, None, n') in
            match t with
            | TId i =>
                if str_eqb i id_const then go QConst (set_type s Djs)
                else if str_eqb i id_export && is_mjs_compatible (as_type s) then go QExport (set_type s Mjs)
                else if str_eqb i id_module && is_cjs_compatible (as_type s) then go QModule (set_type s Cjs)
                else if str_eqb i id_import && is_mjs_compatible (as_type s) then go QImport (set_type s Mjs)
                else value
            | _ => value
            end
          else bad NewLineExpected
      end
  | QExport =>
      match t with
      | TId i => if str_eqb i id_default then Ok (PModule s, None, n) else bad WrongExportStatement
      | _ => bad WrongExportStatement
      end
  | QModule => match t with TDot => go QModuleDot s | _ => bad WrongExportStatement end
  | QModuleDot =>
      match t with
      | TId i => if str_eqb i id_exports then go QModuleDotExports s else bad WrongExportStatement
      | _ => bad WrongExportStatement
      end
  | QModuleDotExports => match t with TEquals => Ok (PModule s, None, n) | _ => bad WrongExportStatement end
  | QConst => match t with TId i => go (QConstId i) s | _ => bad WrongConstStatement end
  | QConstId i => match t with TEquals => Ok (PConst i s, None, n) | _ => bad WrongConstStatement end
  | QImport => match t with TId i => go (QImportId i) s | _ => bad WrongImportStatement end
  | QImportId id =>
      match t with
      | TId i => if str_eqb i id_from then go (QImportIdFrom id) s else bad WrongImportStatement
      | _ => bad WrongImportStatement
      end
  | QImportIdFrom id =>
      match t with
      | TString m => Ok (root QInitial s false, Some (id, m), n)
      | _ => bad WrongImportStatement
      end
  end.

(** Result of a value in a const definition (const_state.rs 21-35, parser.rs 46-63). *)
Definition const_result (key : list Z) (r : any_result) : json_state :=
  match r with
  | RContinue s => PConst key s
  | RSuccess s v => root QInitial (set_consts s (bt_insert (as_consts s) key v)) false
  | RError e => PError e
  end.

(** [ConstState::parse], const_state.rs 14-38 (without context). *)
Definition const_parse (key : list Z) (s : any_state) (n : Z) (t : token) : outcome (json_state * Z) :=
  match t with
  | TSemicolon => Panic   (* todo!() *)
  | _ => let! (rm, n') := any_parse s n t in Ok (const_result key (fst rm), n')
  end.

(** [JsonState::push], json_state.rs 18-43 (without context). *)
Definition json_push (j : json_state) (n : Z) (t : token) : outcome (json_state * option (list Z * list Z) * Z) :=
  match t, j with
  | TNewLine, PRoot r => root_parse r n t
  | TNewLine, _ => Ok (j, None, n)
  | _, PRoot r => root_parse r n t
  | _, PConst key s => let! (j', n') := const_parse key s n t in Ok (j', None, n')
  | _, PResult _ _ => Ok (PError UnexpectedToken, None, n)
  | _, PModule s => let! (jm, n') := parse_for_module s n t in Ok (fst jm, None, n')
  | _, PError _ => Ok (j, None, n)
  end.

(** [JsonState::end], json_state.rs 45-51. *)
Definition json_end (j : json_state) : (data_type * any) + parse_error :=
  match j with
  | PResult d v => inl (d, v)
  | PError e => inr e
  | _ => inr UnexpectedEnd
  end.

(** * parser.rs *)

(** [Context], 16-21, with [ModuleCache], shared.rs 93-96; the manager is the block counter.
    [cx_log] is a ghost: the paths read so far, in order. *)
Record context := {
  cx_next : Z; cx_path : list Z;
  cx_complete : list (list Z * any); cx_progress : list (list Z);
  cx_log : list (list Z) }.

Definition cx_set_next (c : context) (n : Z) : context :=
  {| cx_next := n; cx_path := cx_path c; cx_complete := cx_complete c; cx_progress := cx_progress c; cx_log := cx_log c |}.
(** [progress.insert(path)] and [read_to_string(path)] *)
Definition cx_reading (c : context) (p : list Z) : context :=
  {| cx_next := cx_next c; cx_path := cx_path c; cx_complete := cx_complete c;
     cx_progress := bs_insert (cx_progress c) p; cx_log := cx_log c ++ [p] |}.
(** [progress.remove(path)] and [complete.insert(path, any)] *)
Definition cx_loaded (c : context) (p : list Z) (v : any) : context :=
  {| cx_next := cx_next c; cx_path := cx_path c; cx_complete := bt_insert (cx_complete c) p v;
     cx_progress := bs_remove (cx_progress c) p; cx_log := cx_log c |}.

(** [load c spec]: the part shared by [any_state_parse_import_value] (90-124) and
    [root_state_parse] (162-198): look up or read and parse the module. *)
Definition loader := context -> list Z -> outcome (context * (any + parse_error)).

(** [any_state_parse], 130-150, with [any_state_parse_import_value], 83-128. *)
Definition cx_any_parse (load : loader) (s : any_state) (c : context) (t : token) : outcome (any_result * context) :=
  match as_status s with
  | SImportValue =>
      match t with
      | TString m =>
          let! (c', r) := load c m in
          Ok (match r with
              | inl a => RContinue (set_current (set_status s SImportEnd) (JAny a))
              | inr e => RError e
              end, c')
      | _ => Ok (RError WrongRequireStatement, c)
      end
  | _ => let! (r, n') := any_parse_common s (cx_next c) t in Ok (r, cx_set_next c n')
  end.

(** [const_state_parse], 39-65. *)
Definition cx_const_parse (load : loader) (key : list Z) (s : any_state) (c : context) (t : token) : outcome (json_state * context) :=
  match t with
  | TSemicolon => Panic
  | _ => let! (r, c') := cx_any_parse load s c t in Ok (const_result key r, c')
  end.

(** [any_state_parse_for_module], 67-81. *)
Definition cx_module_parse (load : loader) (s : any_state) (c : context) (t : token) : outcome (json_state * context) :=
  let! (r, c') := cx_any_parse load s c t in
  Ok (match r with
      | RContinue s' => PModule s'
      | RSuccess s' v => PResult (as_type s') v
      | RError e => PError e
      end, c').

(** [root_state_parse], 152-203. *)
Definition cx_root_parse (load : loader) (r : root_state) (c : context) (t : token) : outcome (json_state * context) :=
  let! (ji, n') := root_parse r (cx_next c) t in
  let c1 := cx_set_next c n' in
  let '(j, import) := ji in
  match import with
  | None => Ok (j, c1)
  | Some (id, m) =>
      match j with
      | PRoot r' =>
          let! (c2, res) := load c1 m in
          Ok (match res with
              | inl a => root QInitial (set_consts (rs_state r') (bt_insert (as_consts (rs_state r')) id a)) false
              | inr e => PError e
              end, c2)
      | _ => Panic   (* panic!() *)
      end
  end.

(** [json_state_push], 205-223. *)
Definition cx_push (load : loader) (j : json_state) (c : context) (t : token) : outcome (json_state * context) :=
  match t, j with
  | TNewLine, PRoot r => cx_root_parse load r c t
  | TNewLine, _ => Ok (j, c)
  | _, PRoot r => cx_root_parse load r c t
  | _, PResult _ _ => Ok (PError UnexpectedToken, c)
  | _, PModule s => cx_module_parse load s c t
  | _, PConst key s => cx_const_parse load key s c t
  | _, PError _ => Ok (j, c)
  end.

Fixpoint push_all (load : loader) (j : json_state) (c : context) (ts : list token) : outcome (json_state * context) :=
  match ts with
  | [] => Ok (j, c)
  | t :: ts' => let! (j', c') := cx_push load j c t in push_all load j' c' ts'
  end.

(** [parse_with_tokens], 239-252, for a given loader. *)
Definition parse_tokens_with (load : loader) (c : context) (ts : list token) : outcome (context * (data_type * any + parse_error)) :=
  let! (j, c') := push_all load (root QInitial any_default true) c ts in
  Ok (c', json_end j).

Section Import.
Variable io : list Z -> option (list Z).
Variable tfuel : nat.

(** The import of a module: 90-124 and 162-198; the recursive call of [parse_with_tokens] is
    [sub]. *)
Definition import_with (sub : context -> list token -> outcome (context * (data_type * any + parse_error))) : loader :=
  fun c m =>
    let p := path_concat (fst (path_split (cx_path c))) m in
    match bt_get (cx_complete c) p with
    | Some a => Ok (c, inl a)
    | None =>
        if bs_contains (cx_progress c) p then Ok (c, inr CircularDependency)
        else
          let c1 := cx_reading c p in
          match io p with
          | None => Ok (c1, inr CannotReadFile)
          | Some text =>
              let! ts := tokenize tfuel text in
              let! (c2, r) := sub c1 ts in
              Ok (match r with
                  | inl (_, v) => (cx_loaded c2 p v, inl v)
                  | inr e => (c2, inr e)
                  end)
          end
    end.

(** [parse_with_tokens], 239-252; [depth] bounds the nesting of imports. *)
Fixpoint parse_tokens (depth : nat) (c : context) (ts : list token) : outcome (context * (data_type * any + parse_error)) :=
  match depth with
  | O => NoFuel
  | S d => parse_tokens_with (import_with (parse_tokens d)) c ts
  end.

(** [parse], 225-237. *)
Definition parse (depth : nat) (c : context) : outcome (context * (data_type * any + parse_error)) :=
  let c1 := cx_reading c (cx_path c) in
  match io (cx_path c) with
  | None => Ok (c1, inr CannotReadFile)
  | Some text => let! ts := tokenize tfuel text in parse_tokens depth c1 ts
  end.
End Import.
