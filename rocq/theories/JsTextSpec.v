(** Values and modules of JavaScript as text, character by character (ECMA-262, the part
    with literals, names of constants and one export). *)
From Coq Require Import ZArith List Bool String Reals.
From Flocq Require Import Core.Core IEEE754.Binary IEEE754.Bits.
From Verif Require Import Outcome LimbsModel BigIntModel JsBigintModel BigFloatModel BigFloatSpec RangeMapSpec TokenizerModel TokenizerSpec ValueModel ParserModel ParserSpec
  SerializerModel SerializerSpec.
Import ListNotations.
Open Scope Z_scope.
Notation any := ValueModel.any.

(** The number that a literal denotes: the nearest binary64 number; [-0] is minus zero. *)
Definition literal_value (n : number_lit) (f : Z) : Prop :=
  f64_nearest f (if nl_neg n then Negative else Positive) (dec_real (number_mantissa n) (number_exp10 n)).

(** A name that is no reserved word: an underscore, then digits. *)
Definition js_name (x : list Z) : Prop := exists r, x = 95 :: r /\ Forall (fun c => 48 <= c <= 57) r.

(** A member named [__proto__] of an object literal sets the prototype; it is no property. *)
Definition proto : list Z := txt "__proto__".

(** [js_text env text t]: the expression [text] has the value [t] where the names of [env]
    are defined. *)
Inductive js_text (env : list (list Z * tree)) : list Z -> tree -> Prop :=
| jx_null : js_text env (txt "null") VNull
| jx_true : js_text env (txt "true") (VBool true)
| jx_false : js_text env (txt "false") (VBool false)
| jx_number n f : number_ok n -> literal_value n f -> js_text env (number_text n) (VNumber f)
| jx_string s t : quoted s t -> js_text env t (VString s)
| jx_name x t : js_name x -> lookup env x = Some t -> js_text env x t
| jx_array texts ts : js_items env texts ts -> js_text env ([91] ++ joined texts ++ [93]) (VArray ts)
| jx_object texts kvs : js_pairs env texts kvs -> NoDup (map fst kvs) -> js_text env ([123] ++ joined texts ++ [125]) (VObject kvs)
with js_items (env : list (list Z * tree)) : list (list Z) -> list tree -> Prop :=
| jxi_nil : js_items env [] []
| jxi_cons text t texts ts : js_text env text t -> js_items env texts ts -> js_items env (text :: texts) (t :: ts)
with js_pairs (env : list (list Z * tree)) : list (list Z) -> list (list Z * tree) -> Prop :=
| jxp_nil : js_pairs env [] []
| jxp_cons k kt text t texts kvs : k <> proto -> quoted k kt -> js_text env text t -> js_pairs env texts kvs ->
    js_pairs env ((kt ++ [58] ++ text) :: texts) ((k, t) :: kvs)
| jxp_proto kt text t texts kvs : quoted proto kt -> js_text env text t -> js_pairs env texts kvs ->
    js_pairs env ((kt ++ [58] ++ text) :: texts) kvs.
Scheme js_text_ind' := Induction for js_text Sort Prop
with js_items_ind' := Induction for js_items Sort Prop
with js_pairs_ind' := Induction for js_pairs Sort Prop.
Combined Scheme js_text_mutind from js_text_ind', js_items_ind', js_pairs_ind'.

(** A module: constants, each usable after its definition and defined once, then the export. *)
Inductive js_program : list (list Z * tree) -> bool -> list Z -> tree -> Prop :=
| jg_const env cjs x a v rest t : js_name x -> lookup env x = None -> js_text env a v ->
    js_program ((x, v) :: env) cjs rest t ->
    js_program env cjs (txt "const " ++ x ++ [61] ++ a ++ [59] ++ rest) t
| jg_export env a t : js_text env a t -> js_program env false (txt "export default " ++ a) t
| jg_exports env a t : js_text env a t -> js_program env true (txt "module.exports=" ++ a) t.

(** All numbers are printed as literals for themselves. *)
Definition numbers_exact (show : Z -> list Z) (a : any) : Prop :=
  forall f, sub a (ANumber f) -> exists n, number_ok n /\ show f = number_text n /\ literal_value n f.
(** No object has two members with the same key. *)
Definition distinct_keys (a : any) : Prop := forall i l, sub a (AObject i l) -> NoDup (map fst l).
(** No object has a member [__proto__]. *)
Definition no_proto (a : any) : Prop := forall i l, sub a (AObject i l) -> ~ In proto (map fst l).
