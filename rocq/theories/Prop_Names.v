(** Property C81: names declared twice, and names that JavaScript reserves. *)
From Coq Require Import ZArith List Bool String Lia.
From Verif Require Import Outcome VTac TokenizerModel TokenizerSpec ValueModel ParserModel ParserSpec ParserModules Prop_Parser.
Import ListNotations.
Open Scope Z_scope.

Lemma spread_eq l : spread l l.
Proof. induction l; constructor; assumption. Qed.

(** In JavaScript a module that declares a name twice, or declares a reserved word, is a
    syntax error.  Here every name may be declared any number of times, and the latest
    declaration counts ... *)
Definition declared (k : list Z) (vs : list token) : list token :=
  flat_map (fun v => [TId (txt "const"); TId k; TEquals; v; TNewLine]) vs ++ [TId (txt "export"); TId (txt "default"); TId k].
Theorem C81_redeclared_refuted : forall io tf R n k (fs : list Z) f text,
  k <> txt "null" -> k <> txt "true" -> k <> txt "false" ->
  io R = Some text -> tokenize tf text = Ok (declared k (map TNumber (fs ++ [f]))) ->
  exists depth c v, parse io tf depth (fresh R n) = Ok (c, inl (Mjs, v)) /\ erase v = VNumber f.
Proof.
  intros io tf R n k fs f text K1 K2 K3 Hio Ht. apply C39_modules. exists 1%nat, text, (declared k (map TNumber (fs ++ [f]))).
  split; [exact Hio|]. split; [exact Ht|]. clear -K1 K2 K3. set (mods := fun m t' => _). clearbody mods.
  assert (G : forall fs env d, may_be_mjs d = true -> gmodule mods env d true (declared k (map TNumber (fs ++ [f]))) Mjs (VNumber f)); [|apply G; reflexivity].
  clear fs. unfold declared. induction fs as [|x fs IH]; intros env d Hd; cbn [app map flat_map].
  - apply (gs_const mods env d k [TNumber f] [TNumber f] (VNumber f) Djs); [apply spread_eq|apply gv_scalar; [constructor|discriminate]|].
    apply gs_newline. apply gs_export; [reflexivity|]. exists [TId k], [TId k], O. split; [reflexivity|]. split; [apply spread_eq|].
    apply gv_scalar; [apply sc_name; auto|reflexivity]. cbn [lookup]. destruct (list_eq_dec Z.eq_dec k k); congruence.
  - apply (gs_const mods env d k [TNumber x] [TNumber x] (VNumber x) Djs); [apply spread_eq|apply gv_scalar; [constructor|discriminate]|].
    apply gs_newline. apply IH. reflexivity.
Qed.
Print Assumptions C81_redeclared_refuted.

(** ... and [null], [true], [false] may be declared too, without effect. *)
Theorem C81_reserved_refuted : forall io tf R n f text,
  io R = Some text -> tokenize tf text = Ok (declared (txt "null") [TNumber f]) ->
  exists depth c v, parse io tf depth (fresh R n) = Ok (c, inl (Mjs, v)) /\ erase v = VNull.
Proof.
  intros io tf R n f text Hio Ht. apply C39_modules. exists 1%nat, text, (declared (txt "null") [TNumber f]).
  split; [exact Hio|]. split; [exact Ht|]. 
  apply (gs_const _ [] Json (txt "null") [TNumber f] [TNumber f] (VNumber f) Djs); [apply spread_eq|apply gv_scalar; [constructor|discriminate]|].
  apply gs_newline. apply gs_export; [reflexivity|]. exists [TId (txt "null")], [TId (txt "null")], O. split; [reflexivity|]. split; [apply spread_eq|].
  apply gv_scalar; [constructor|discriminate].
Qed.
Print Assumptions C81_reserved_refuted.

Definition c81_io (p : list Z) : option (list Z) :=
  if list_eq_dec Z.eq_dec p (txt "a") then Some (txt "const x=0" ++ [10] ++ txt "const x=2" ++ [10] ++ txt "export default x")
  else if list_eq_dec Z.eq_dec p (txt "b") then Some (txt "const null=2" ++ [10] ++ txt "export default null") else None.
Example C81_case :
  tokenize 100 (txt "const x=0" ++ [10] ++ txt "const x=2" ++ [10] ++ txt "export default x") = Ok (declared (txt "x") (map TNumber ([0] ++ [0x4000000000000000])))
  /\ tokenize 100 (txt "const null=2" ++ [10] ++ txt "export default null") = Ok (declared (txt "null") [TNumber 0x4000000000000000])
  /\ (let! (_, r) := parse c81_io 100 3 (fresh (txt "a") 0) in Ok r) = Ok (inl (Mjs, ANumber 0x4000000000000000))
  /\ (let! (_, r) := parse c81_io 100 3 (fresh (txt "b") 0) in Ok r) = Ok (inl (Mjs, ANull)).
Proof. vm_compute. auto. Qed.
