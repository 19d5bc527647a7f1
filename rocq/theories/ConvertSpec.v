(** What converting a file is expected to preserve. *)
From Coq Require Import ZArith List String.
From Verif Require Import Outcome TokenizerModel TokenizerSpec ValueModel ParserModel ParserSpec SerializerSpec.
Import ListNotations.
Open Scope Z_scope.

(** Values without bigints, with numbers that [show] prints as plain decimals of at most 27
    fraction digits, and with strings and keys in the basic plane. *)
Inductive printable (show : Z -> list Z) : tree -> Prop :=
| pt_null : printable show VNull
| pt_bool b : printable show (VBool b)
| pt_number f : number_shown show f -> printable show (VNumber f)
| pt_string s : bmp s -> printable show (VString s)
| pt_array l : Forall (printable show) l -> printable show (VArray l)
| pt_object l : Forall (fun kv => bmp (fst kv) /\ printable show (snd kv)) l -> printable show (VObject l).

(** The dialect that the converter writes for a file name. *)
Inductive written_as : list Z -> data_type -> Prop :=
| wa_json s : written_as (s ++ txt ".json") Json
| wa_cjs s : written_as (s ++ txt ".d.cjs") Cjs
| wa_mjs s : written_as (s ++ txt ".d.mjs") Mjs.

(** [text] is a file in this dialect with the value [t], as JSON and JavaScript define it. *)
Definition holds (d : data_type) (toks : list token) (t : tree) : Prop :=
  match d with
  | Json => json_value toks t
  | Cjs => js_module [] true toks t
  | Mjs => js_module [] false toks t
  | Djs => False
  end.
