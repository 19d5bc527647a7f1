(** What a token sequence and a module graph denote: a grammar and a denotation written
    without reference to the parser's state machine. *)
From Coq Require Import ZArith List Bool String Sorted.
From Verif Require Import Outcome JsBigintModel TokenizerModel TokenizerSpec ValueModel ParserModel TextSpec.
Import ListNotations.
Open Scope Z_scope.

(** Values without block identity. *)
Inductive tree : Type :=
| VNull | VBool (b : bool) | VNumber (bits : Z) | VString (s : list Z) | VBigint (b : jsbigint)
| VArray (items : list tree) | VObject (items : list (list Z * tree)).

Fixpoint erase (a : any) : tree :=
  match a with
  | ANull => VNull
  | ABool b => VBool b
  | ANumber f => VNumber f
  | AString s => VString s
  | ABigint b => VBigint b
  | AArray _ l => VArray (map erase l)
  | AObject _ l => VObject (map (fun kv => (fst kv, erase (snd kv))) l)
  end.

(** The value given to a name by the latest binding in scope (latest first). *)
Fixpoint lookup (env : list (list Z * tree)) (k : list Z) : option tree :=
  match env with
  | [] => None
  | (k', t) :: env' => if list_eq_dec Z.eq_dec k k' then Some t else lookup env' k
  end.

(** The value of an object literal with the members [kvs], as written: keys in increasing
    code point order, each with the value of its last occurrence; keys are stored as
    UTF-16. *)
Definition is_object (kvs : list (list Z * tree)) (o : list (list Z * tree)) : Prop :=
  exists m, StronglySorted (fun a b => text_before (fst a) (fst b)) m
    /\ (forall k, lookup m k = lookup (rev kvs) k)
    /\ o = map (fun kv => (units (fst kv), snd kv)) m.

(** Tokens that denote a value on their own. *)
Inductive scalar (env : list (list Z * tree)) : token -> tree -> Prop :=
| sc_number f : scalar env (TNumber f) (VNumber f)
| sc_string s : scalar env (TString s) (VString (units s))
| sc_bigint b : scalar env (TBigInt b) (VBigint b)
| sc_null : scalar env (TId (txt "null")) VNull
| sc_true : scalar env (TId (txt "true")) (VBool true)
| sc_false : scalar env (TId (txt "false")) (VBool false)
| sc_name s t :
    s <> txt "null" -> s <> txt "true" -> s <> txt "false" ->
    lookup env s = Some t -> scalar env (TId s) t.

(** * JSON with trailing commas (and bigint literals) *)
Inductive json_value : list token -> tree -> Prop :=
| jv_scalar tok t : scalar [] tok t -> json_value [tok] t
| jv_array body ts : json_elems body ts -> json_value (TArrayBegin :: body ++ [TArrayEnd]) (VArray ts)
| jv_object body kvs o : json_members body kvs -> is_object kvs o ->
    json_value (TObjectBegin :: body ++ [TObjectEnd]) (VObject o)
with json_elems : list token -> list tree -> Prop :=
| je_nil : json_elems [] []
| je_last a t : json_value a t -> json_elems a [t]
| je_cons a t b ts : json_value a t -> json_elems b ts -> json_elems (a ++ TComma :: b) (t :: ts)
with json_members : list token -> list (list Z * tree) -> Prop :=
| jm_nil : json_members [] []
| jm_last k a t : json_value a t -> json_members (TString k :: TColon :: a) [(k, t)]
| jm_cons k a t b kvs : json_value a t -> json_members b kvs ->
    json_members (TString k :: TColon :: a ++ TComma :: b) ((k, t) :: kvs).

(** * Values in modules: names, identifier keys, [require] *)

(** Where a value stands: first in an array, later in an array, anywhere else. *)
Inductive position := PElsewhere | PFirst | PNext.

(** What a module may still turn out to be: once it has used syntax of one module system, the
    words of the other are gone; an unquoted name needs anything beyond plain JSON. *)
Definition may_be_cjs (d : data_type) : bool := match d with Mjs => false | _ => true end.
Definition may_be_mjs (d : data_type) : bool := match d with Cjs => false | _ => true end.
Definition now_cjs (d : data_type) : bool := match d with Cjs => true | _ => false end.
Definition beyond_json (d : data_type) : bool := match d with Json => false | _ => true end.

(** Where the dialect lets [require] be written (as accepted by the code). *)
Definition require_ok (p : position) (d : data_type) : bool :=
  match p with PElsewhere => may_be_cjs d | PFirst => false | PNext => now_cjs d end.

Inductive key_token (first : bool) (d : data_type) : token -> list Z -> Prop :=
| kt_string k : key_token first d (TString k) k
| kt_name k : first = true -> beyond_json d = true -> key_token first d (TId k) k.

Section Grammar.
(** [mods m t]: the module named [m] in this module denotes [t]. *)
Variable mods : list Z -> tree -> Prop.

Inductive gval (env : list (list Z * tree)) : position -> data_type -> list token -> data_type -> tree -> Prop :=
| gv_scalar p d tok t : scalar env tok t -> (tok = TId (txt "require") -> require_ok p d = false) ->
    gval env p d [tok] d t
| gv_require p d m t : require_ok p d = true -> mods m t ->
    gval env p d [TId (txt "require"); TOpenPar; TString m; TClosePar] Cjs t
| gv_array p d body d' ts : gelems env PFirst d body d' ts ->
    gval env p d (TArrayBegin :: body ++ [TArrayEnd]) d' (VArray ts)
| gv_object p d body d' kvs o : gmembers env true d body d' kvs -> is_object kvs o ->
    gval env p d (TObjectBegin :: body ++ [TObjectEnd]) d' (VObject o)
with gelems (env : list (list Z * tree)) : position -> data_type -> list token -> data_type -> list tree -> Prop :=
| ge_nil p d : gelems env p d [] d []
| ge_last p d a d' t : gval env p d a d' t -> gelems env p d a d' [t]
| ge_cons p d a d1 t b d' ts : gval env p d a d1 t -> gelems env PNext d1 b d' ts ->
    gelems env p d (a ++ TComma :: b) d' (t :: ts)
with gmembers (env : list (list Z * tree)) : bool -> data_type -> list token -> data_type -> list (list Z * tree) -> Prop :=
| gm_nil f d : gmembers env f d [] d []
| gm_last f d tok k a d' t : key_token f d tok k -> gval env PElsewhere d a d' t ->
    gmembers env f d (tok :: TColon :: a) d' [(k, t)]
| gm_cons f d tok k a d1 t b d' kvs : key_token f d tok k -> gval env PElsewhere d a d1 t ->
    gmembers env false d1 b d' kvs ->
    gmembers env f d (tok :: TColon :: a ++ TComma :: b) d' ((k, t) :: kvs).

(** [spread a b]: [b] is [a] with line breaks added before some of its tokens. *)
Inductive spread : list token -> list token -> Prop :=
| sp_nil : spread [] []
| sp_newline x a b : spread (x :: a) b -> spread (x :: a) (TNewLine :: b)
| sp_token x a b : spread a b -> spread (x :: a) (x :: b).

(** A value, line breaks anywhere. *)
Definition gfinal (env : list (list Z * tree)) (d : data_type) (toks : list token) (d' : data_type) (t : tree) : Prop :=
  exists a b n, toks = b ++ repeat TNewLine n /\ spread a b /\ gval env PElsewhere d a d' t.

(** Does the token open a statement in this dialect? *)
Definition opens_statement (d : data_type) (tok : token) : bool :=
  match tok with
  | TId i =>
      if list_eq_dec Z.eq_dec i (txt "const") then true
      else if list_eq_dec Z.eq_dec i (txt "export") then may_be_mjs d
      else if list_eq_dec Z.eq_dec i (txt "import") then may_be_mjs d
      else if list_eq_dec Z.eq_dec i (txt "module") then may_be_cjs d
      else false
  | _ => false
  end.

(** [gmodule env d nl toks d' t]: with the names [env] bound, in dialect [d], at the start of
    a line iff [nl], the rest [toks] of the module exports [t]. *)
Inductive gmodule : list (list Z * tree) -> data_type -> bool -> list token -> data_type -> tree -> Prop :=
| gs_newline env d nl toks d' t : gmodule env d true toks d' t -> gmodule env d nl (TNewLine :: toks) d' t
| gs_const env d k a b v d1 rest d' t :
    spread a b -> gval env PElsewhere Djs a d1 v ->
    gmodule ((k, v) :: env) d1 false rest d' t ->
    gmodule env d true (TId (txt "const") :: TId k :: TEquals :: b ++ rest) d' t
| gs_import env d k m v rest d' t :
    may_be_mjs d = true -> mods m v ->
    gmodule ((k, v) :: env) Mjs false rest d' t ->
    gmodule env d true (TId (txt "import") :: TId k :: TId (txt "from") :: TString m :: rest) d' t
| gs_export env d toks d' t :
    may_be_mjs d = true -> gfinal env Mjs toks d' t ->
    gmodule env d true (TId (txt "export") :: TId (txt "default") :: toks) d' t
| gs_exports env d toks d' t :
    may_be_cjs d = true -> gfinal env Cjs toks d' t ->
    gmodule env d true (TId (txt "module") :: TDot :: TId (txt "exports") :: TEquals :: toks) d' t
| gs_value env d tok toks d' t :
    opens_statement d tok = false -> tok <> TNewLine -> gfinal env d (tok :: toks) d' t ->
    gmodule env d true (tok :: toks) d' t.
End Grammar.

(** * What a module denotes *)
Section Denotation.
Variable io : list Z -> option (list Z).
Variable tfuel : nat.
(** [resolve p m]: the path of the module that the module at [p] calls [m]. *)
Variable resolve : list Z -> list Z -> list Z.

(** The module at path [p] denotes [t] with imports nested at most [n] deep. *)
Fixpoint denotes (n : nat) (p : list Z) (d : data_type) (t : tree) : Prop :=
  match n with
  | O => False
  | S n' =>
      exists text toks, io p = Some text /\ tokenize tfuel text = Ok toks
        /\ gmodule (fun m t' => exists d', denotes n' (resolve p m) d' t') [] Json true toks d t
  end.
End Denotation.

Scheme gval_mind := Minimality for gval Sort Prop
  with gelems_mind := Minimality for gelems Sort Prop
  with gmembers_mind := Minimality for gmembers Sort Prop.
Combined Scheme gval_mutind from gval_mind, gelems_mind, gmembers_mind.
Scheme json_value_mind := Minimality for json_value Sort Prop
  with json_elems_mind := Minimality for json_elems Sort Prop
  with json_members_mind := Minimality for json_members Sort Prop.
Combined Scheme json_value_mutind from json_value_mind, json_elems_mind, json_members_mind.
