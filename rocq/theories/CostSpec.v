(** Specification vocabulary for nesting and sizes. *)
From Coq Require Import ZArith List Bool String.
From Verif Require Import TokenizerModel TokenizerSpec ValueModel ParserModel ParserSpec SerializerModel SerializerSpec.
Import ListNotations.
Open Scope Z_scope.
Notation any := ValueModel.any.

(** [nested n a]: [n] values inside each other inside [a]. *)
Inductive nested : nat -> any -> Prop :=
| ne_zero a : nested O a
| ne_child n a c : In c (children a) -> nested n c -> nested (S n) a.

(** The values in the unfolding of [a], [a] included: a block counts once for every way to it. *)
Fixpoint unfolded (a : any) : nat :=
  match a with
  | AArray _ l => S (list_sum (map unfolded l))
  | AObject _ l => S (list_sum (map (fun kv => unfolded (snd kv)) l))
  | _ => 1%nat
  end.

(** [[[...]]], [n] brackets around [null]. *)
Fixpoint deep (n : nat) : tree := match n with O => VNull | S n => VArray [deep n] end.
Definition deep_text (n : nat) : list Z := repeat 91 n ++ txt "null" ++ repeat 93 n.

(** The full binary tree. *)
Fixpoint full (n : nat) : tree := match n with O => VArray [] | S n => VArray [full n; full n] end.
(** A module that denotes it. *)
Definition full_text (n : nat) : list Z :=
  txt "const a=[]" ++ [10] ++ List.concat (repeat (txt "const a=[a,a]" ++ [10]) n) ++ txt "export default a".
(** The same with every block used twice: block [n] is [[b, b]] for block [b] number [n - 1]. *)
Fixpoint shared_full (n : nat) : any :=
  match n with O => AArray 0 [] | S m => AArray (Z.of_nat n) [shared_full m; shared_full m] end.
