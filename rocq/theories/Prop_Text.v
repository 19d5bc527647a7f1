(** Property C73: strings keep their text. *)
From Coq Require Import ZArith List Bool Lia String.
From Verif Require Import Outcome VTac JsBigintModel TokenizerModel TokenizerSpec TokenizerProofs TokenizerRun TokenizerLex ValueModel
  ParserModel ParserSpec BTreeProofs ParserProofs ParserRun ParserModules ParserMore TextSpec TextProofs TextTokens.
Import ListNotations.
Open Scope Z_scope.

Lemma spells_scalar body s : spells body s -> Forall scalar_value body -> Forall scalar_value s.
Proof.
  induction 1 as [|c body s H1 H2 H3 H IH|x y body s Hx H IH|a b c d va vb vc vd body s Ha Hb Hc Hd Hs H IH]; intros Ht; [constructor|..].
  - inversion Ht; subst. constructor; auto.
  - inversion Ht as [|? ? ? Ht']; subst. inversion Ht' as [|? ? Hsx Ht'']; subst. constructor; [|auto].
    revert Hx. unfold short_escape.
    repeat match goal with |- context [if ?b then _ else _] => destruct b; [intros [= <-]; try exact Hsx; left; lia|] end. discriminate.
  - constructor; [exact Hs|]. apply IH. repeat match goal with H : Forall _ (_ :: _) |- _ => inversion H; subst; clear H end. assumption.
Qed.

(** Loading a file that holds one string literal gives a string whose UTF-16 code units decode
    to the text that the literal denotes, and to no other. *)
Theorem C73_string : forall io tf depth R k body s,
  io R = Some (34 :: body ++ [34]) -> Forall scalar_value body -> spells body s ->
  exists c' u, parse io tf (S depth) (fresh R k) = Ok (c', inl (Json, AString u))
    /\ forall t, reads_as u t <-> t = s.
Proof.
  intros io tf depth R k body s Hio Hb Hs.
  assert (Ht : tokenize tf (34 :: body ++ [34]) = Ok [TString s]).
  { rewrite tokenize_run.
    assert (E : step tf Initial 34 = Ok ([], ParseString [])) by (cbn [step]; rewrite push_initial by lia; reflexivity).
    rewrite (step_nil _ _ 34 _ _ ltac:(lia) E). rewrite (run_spells tf body s Hs [] [34]). reflexivity. }
  unfold parse. cbn [fresh cx_path]. rewrite Hio, Ht. cbn [obind]. eexists _, (utf16 s). split; [reflexivity|].
  intros t. rewrite utf16_units. assert (Hr : reads_as (units s) s) by (eapply units_read, spells_scalar; eassumption).
  split; [intros H; eapply reads_as_text; eassumption|intros ->; exact Hr].
Qed.
Print Assumptions C73_string.

(** Every string and every key inside a loaded value, however many modules it comes from, is
    the encoding of a text. *)
Theorem C73_well_formed : forall io tf R depth k c' d v,
  (forall p text, io p = Some text -> Forall scalar_value text) ->
  parse io tf depth (fresh R k) = Ok (c', inl (d, v)) -> text_tree (erase v).
Proof.
  intros io tf R depth k c' d v Hio H. destruct (parse_sound _ _ _ _ _ _ _ _ H) as (n & Hn). exact (denotes_text _ _ _ _ Hio _ _ _ Hn).
Qed.
Print Assumptions C73_well_formed.

(** Different texts are different strings. *)
Theorem C73_injective : forall s t, Forall scalar_value s -> Forall scalar_value t -> utf16 s = utf16 t -> s = t.
Proof.
  intros s t Hs Ht H. rewrite !utf16_units in H. apply (reads_as_text (units s)); [apply units_read, Hs|]. rewrite H. apply units_read, Ht.
Qed.
Print Assumptions C73_injective.

(** The keys of an object are in the order of their code points, which is not the order of the
    stored code units: U+FF5E comes before U+1F600, whose first unit is smaller. *)
Theorem C73_unit_order_refuted : exists text c' i ku kv u v,
  Forall scalar_value text
  /\ parse (fun _ => Some text) 100 1 (fresh [] 0) = Ok (c', inl (Json, AObject i [(ku, u); (kv, v)]))
  /\ text_before kv ku.
Proof.
  exists [123; 34; 0xFF5E; 34; 58; 49; 44; 34; 0x1F600; 34; 58; 50; 125].
  assert (H : match parse (fun _ => Some [123; 34; 0xFF5E; 34; 58; 49; 44; 34; 0x1F600; 34; 58; 50; 125]) 100 1 (fresh [] 0) with
    | Ok (_, inl (Json, AObject _ [(ku, _); (kv, _)])) => ku = [0xFF5E] /\ kv = [0xD83D; 0xDE00]
    | _ => False end) by (vm_compute; split; reflexivity).
  destruct (parse _ 100 1 (fresh [] 0)) as [[c' [[[] [| | | | | |i [|[ku u] [|[kv v] []]]]]|]]| |]; try contradiction.
  destruct H as [-> ->]. eexists c', i, _, _, u, v. split; [|split; [reflexivity|apply tb_here; lia]].
  repeat first [apply Forall_nil|apply Forall_cons]; unfold scalar_value; lia.
Qed.
Print Assumptions C73_unit_order_refuted.

Example C73_case :
  match parse (fun _ => Some [34; 0x1F600; 0x61; 34]) 10 1 (fresh [] 0) with
  | Ok (_, inl (_, AString u)) => u = [0xD83D; 0xDE00; 0x61]
  | _ => False
  end
  /\ reads_as [0xD83D; 0xDE00; 0x61] [0x1F600; 0x61].
Proof. split; [vm_compute; reflexivity|]. apply (ra_pair 0xD83D 0xDE00 _ _); [lia|lia|]. apply ra_one; [left; lia|lia|constructor]. Qed.
