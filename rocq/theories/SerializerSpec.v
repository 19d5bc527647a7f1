(** What the serializers are expected to write. *)
From Coq Require Import ZArith List Bool String.
From Verif Require Import Outcome BigIntModel JsBigintModel TokenizerModel TokenizerSpec BigSpec BigFloatSpec ValueModel ParserModel ParserSpec TextSpec.
Import ListNotations.
Open Scope Z_scope.

(** * Object graphs *)

(** The values directly inside an array or object. *)
Definition children (a : any) : list any :=
  match a with AArray _ l => l | AObject _ l => map snd l | _ => [] end.

(** [sub a b]: [b] is [a] or lies inside [a]. *)
Inductive sub : any -> any -> Prop :=
| sub_refl a : sub a a
| sub_child a c b : In c (children a) -> sub c b -> sub a b.
(** [b] lies strictly inside [a]. *)
Definition inside (a b : any) : Prop := exists c, In c (children a) /\ sub c b.

(** One block has one content: what makes the unfolding [a] the picture of a heap. *)
Definition coherent (a : any) : Prop :=
  forall b c i, sub a b -> sub a c -> ident_of b = Some i -> ident_of c = Some i -> b = c.

(** No bigint anywhere. *)
Definition no_bigint (a : any) : Prop := forall b, sub a b -> forall x, b <> ABigint x.

(** The references to block [i] in the graph of [r]: the root itself, or the [k]-th child of
    block [j]. *)
Inductive place (r : any) (i : Z) : option (Z * nat) -> Prop :=
| pl_root : ident_of r = Some i -> place r i None
| pl_child b j k c : sub r b -> ident_of b = Some j -> nth_error (children b) k = Some c -> ident_of c = Some i ->
    place r i (Some (j, k)).
(** Block [i] is referred to at least twice. *)
Definition shared (r : any) (i : Z) : Prop := exists p q, p <> q /\ place r i p /\ place r i q.

(** * Strings *)

(** A UTF-16 unit. *)
Definition unit16 (c : Z) : Prop := 0 <= c < 65536.
(** [unit_spells body u]: the JSON string body denotes the UTF-16 units [u]; [\uXXXX] denotes
    one unit, surrogate or not, as in JSON and JavaScript; raw characters are printable. *)
Inductive unit_spells : list Z -> list Z -> Prop :=
| us_nil : unit_spells [] []
| us_raw c body u : 32 <= c < 128 -> c <> 34 -> c <> 92 -> unit_spells body u -> unit_spells (c :: body) (c :: u)
| us_short x y body u : short_escape x = Some y -> unit_spells body u -> unit_spells (92 :: x :: body) (y :: u)
| us_unicode a b c d va vb vc vd body u :
    hex_value a = Some va -> hex_value b = Some vb -> hex_value c = Some vc -> hex_value d = Some vd ->
    unit_spells body u ->
    unit_spells (92 :: 117 :: a :: b :: c :: d :: body) (va * 4096 + vb * 256 + vc * 16 + vd :: u).

(** Units that are characters by themselves. *)
Definition surrogate (c : Z) : Prop := 0xD800 <= c <= 0xDFFF.
Definition bmp (s : list Z) : Prop := Forall (fun c => unit16 c /\ ~ surrogate c) s.

(** * Values whose JSON text this tokenizer reads back *)
Section Readable.
Variable show : Z -> list Z.

(** The number [f] is printed as a literal without exponent, at most 27 fraction digits, that
    is nearest to [f]. *)
Definition number_shown (f : Z) : Prop :=
  exists n, number_ok n /\ nl_exp n = None /\ show f = number_text n /\ -27 <= number_exp10 n
    /\ (number_mantissa n = 0 /\ nl_neg n = false /\ f = 0
        \/ 0 < number_mantissa n /\ f64_nearest f (if nl_neg n then Negative else Positive) (dec_real (number_mantissa n) (number_exp10 n))).

Inductive readable : tree -> Prop :=
| rd_null : readable VNull
| rd_bool b : readable (VBool b)
| rd_number f : number_shown f -> readable (VNumber f)
| rd_string s : bmp s -> readable (VString s)
| rd_array l : Forall readable l -> readable (VArray l)
| rd_object l : Forall (fun kv => bmp (fst kv) /\ readable (snd kv)) l ->
    Sorted.StronglySorted (fun a b => text_before (fst a) (fst b)) l -> readable (VObject l).

(** * Text with names for shared blocks *)

(** Decimal digits of a number ([k] bounds their count). *)
Fixpoint digits (k : nat) (n : Z) : list Z :=
  match k with
  | O => []
  | S k => if n <? 10 then [48 + n] else digits k (n / 10) ++ [48 + n mod 10]
  end.
(** The name of the [n]-th constant: [_n]. *)
Definition name_text (n : nat) : list Z := 95 :: digits (S n) (Z.of_nat n).
(** [text] is a JSON string literal for the UTF-16 units [s]. *)
Definition quoted (s text : list Z) : Prop := exists body, text = 34 :: body ++ [34] /\ unit_spells body s.
(** Texts with commas between them. *)
Definition joined (texts : list (list Z)) : list Z :=
  match texts with [] => [] | t :: ts => t ++ flat_map (fun x => 44 :: x) ts end.

(** [written share a text]: [text] is [a] with every block that [share] names replaced by
    that name.  [spelled]: the same, but [a] itself is spelled out. *)
Inductive written (share : Z -> option nat) : any -> list Z -> Prop :=
| wr_name a i n : ident_of a = Some i -> share i = Some n -> written share a (name_text n)
| wr_spelled a text : (forall i, ident_of a = Some i -> share i = None) -> spelled share a text -> written share a text
with spelled (share : Z -> option nat) : any -> list Z -> Prop :=
| sl_null : spelled share ANull (txt "null")
| sl_true : spelled share (ABool true) (txt "true")
| sl_false : spelled share (ABool false) (txt "false")
| sl_number f : spelled share (ANumber f) (show f)
| sl_string s t : quoted s t -> spelled share (AString s) t
| sl_array i l texts : elems_written share l texts ->
    spelled share (AArray i l) ([91] ++ joined texts ++ [93])
| sl_object i l texts : members_written share l texts ->
    spelled share (AObject i l) ([123] ++ joined texts ++ [125])
with elems_written (share : Z -> option nat) : list any -> list (list Z) -> Prop :=
| ew_nil : elems_written share [] []
| ew_cons a l t ts : written share a t -> elems_written share l ts -> elems_written share (a :: l) (t :: ts)
with members_written (share : Z -> option nat) : list (list Z * any) -> list (list Z) -> Prop :=
| mw_nil : members_written share [] []
| mw_cons k kt a l t ts : quoted k kt -> written share a t -> members_written share l ts ->
    members_written share ((k, a) :: l) ((kt ++ [58] ++ t) :: ts).
End Readable.

(** Position of block [i] in a list of definitions. *)
Fixpoint index_of (defs : list any) (i : Z) : option nat :=
  match defs with
  | [] => None
  | b :: r => match ident_of b with
              | Some j => if i =? j then Some O else option_map S (index_of r i)
              | None => option_map S (index_of r i)
              end
  end.

(** [const _n=body;] for each body. *)
Fixpoint declarations (n : nat) (bodies : list (list Z)) : list Z :=
  match bodies with
  | [] => []
  | b :: r => txt "const " ++ name_text n ++ [61] ++ b ++ [59] ++ declarations (S n) r
  end.
Definition header (common_js : bool) : list Z := if common_js then txt "module.exports=" else txt "export default ".

(** * JavaScript modules *)

(** Values with names; members in source order, the last of equal keys wins. *)
Inductive js_value (env : list (list Z * tree)) : list token -> tree -> Prop :=
| jsv_scalar tok t : scalar env tok t -> js_value env [tok] t
| jsv_array body ts : js_elems env body ts -> js_value env (TArrayBegin :: body ++ [TArrayEnd]) (VArray ts)
| jsv_object body kvs o : js_members env body kvs -> is_object kvs o ->
    js_value env (TObjectBegin :: body ++ [TObjectEnd]) (VObject o)
with js_elems (env : list (list Z * tree)) : list token -> list tree -> Prop :=
| jse_nil : js_elems env [] []
| jse_last a t : js_value env a t -> js_elems env a [t]
| jse_cons a t b ts : js_value env a t -> js_elems env b ts -> js_elems env (a ++ TComma :: b) (t :: ts)
with js_members (env : list (list Z * tree)) : list token -> list (list Z * tree) -> Prop :=
| jsm_nil : js_members env [] []
| jsm_last k a t : js_value env a t -> js_members env (TString k :: TColon :: a) [(k, t)]
| jsm_cons k a t b kvs : js_value env a t -> js_members env b kvs ->
    js_members env (TString k :: TColon :: a ++ TComma :: b) ((k, t) :: kvs).

(** A module: constants, each usable after its definition and defined once, then the export. *)
Inductive js_module : list (list Z * tree) -> bool -> list token -> tree -> Prop :=
| jsm_const env cjs k a v rest t : js_value env a v -> lookup env k = None ->
    js_module ((k, v) :: env) cjs rest t ->
    js_module env cjs (TId (txt "const") :: TId k :: TEquals :: a ++ TSemicolon :: rest) t
| jsm_export env a t : js_value env a t ->
    js_module env false (TId (txt "export") :: TId (txt "default") :: a) t
| jsm_exports env a t : js_value env a t ->
    js_module env true (TId (txt "module") :: TDot :: TId (txt "exports") :: TEquals :: a) t.

(** * Hash order *)

(** [iter().next()] of a map: some entry, unless the map is empty. *)
Definition any_order (peek : list (Z * any) -> option any) : Prop :=
  peek [] = None /\ forall m, m <> [] -> exists i a, In (i, a) m /\ peek m = Some a.

(** * JSON texts, character by character (RFC 8259 without insignificant white space) *)
Section JsonChars.
Variable show : Z -> list Z.
Inductive json_chars : list Z -> tree -> Prop :=
| jc_null : json_chars (txt "null") VNull
| jc_true : json_chars (txt "true") (VBool true)
| jc_false : json_chars (txt "false") (VBool false)
| jc_number n f : number_ok n -> show f = number_text n -> json_chars (number_text n) (VNumber f)
| jc_string body s : unit_spells body s -> json_chars (34 :: body ++ [34]) (VString s)
| jc_array text ts : json_items text ts -> json_chars (91 :: text ++ [93]) (VArray ts)
| jc_object text kvs : json_pairs text kvs -> json_chars (123 :: text ++ [125]) (VObject kvs)
with json_items : list Z -> list tree -> Prop :=
| ji_none : json_items [] []
| ji_one text t : json_chars text t -> json_items text [t]
| ji_more text t rest ts : json_chars text t -> json_items rest ts -> ts <> [] -> json_items (text ++ 44 :: rest) (t :: ts)
with json_pairs : list Z -> list (list Z * tree) -> Prop :=
| jp_none : json_pairs [] []
| jp_one body k text t : unit_spells body k -> json_chars text t -> json_pairs (34 :: body ++ [34] ++ 58 :: text) [(k, t)]
| jp_more body k text t rest kvs : unit_spells body k -> json_chars text t -> json_pairs rest kvs -> kvs <> [] ->
    json_pairs (34 :: body ++ [34] ++ 58 :: text ++ 44 :: rest) ((k, t) :: kvs).
End JsonChars.

(** All strings and keys consist of UTF-16 units. *)
Definition units (a : any) : Prop := forall b, sub a b ->
  match b with
  | AString s => Forall unit16 s
  | AObject _ l => Forall (fun kv => Forall unit16 (fst kv)) l
  | _ => True
  end.
(** All numbers are printed as JSON numbers. *)
Definition numbers_literal (show : Z -> list Z) (a : any) : Prop :=
  forall f, sub a (ANumber f) -> exists n, number_ok n /\ show f = number_text n.
