(** Property C56, character by character: what the modules written by [to_djs] mean as
    JavaScript (JsTextSpec). *)
From Coq Require Import ZArith List Bool String Lia.
From Coq Require Import ZifyBool ZifyNat.
From Coq Require Import Reals Lra.
From Verif Require Import Outcome VTac LimbsModel BigIntModel JsBigintModel BigFloatModel BigFloatSpec RangeMapSpec TokenizerModel TokenizerSpec ValueModel
  ParserModel ParserSpec ParserProofs SerializerModel SerializerSpec SerializerProofs SerializerDjs SerializerRead Prop_Serializer
  JsTextSpec JsTextProofs JsTextUnique.
Import ListNotations.
Open Scope Z_scope.

(** The module means the value and nothing else, for every hash order: any strings (lone
    surrogates too), any numbers that are printed as literals for themselves (minus zero and
    the smallest too). *)
Theorem C56_text : forall show r, coherent r -> no_bigint r -> SerializerSpec.units r -> numbers_exact show r -> distinct_keys r -> no_proto r ->
  forall peek, any_order peek -> forall cjs,
  exists f0, forall fuel, (f0 <= fuel)%nat -> exists text, to_djs show peek fuel r cjs = Ok text
    /\ forall t, js_program [] cjs text t <-> t = erase r.
Proof.
  intros show r coh nob uni num keys nop peek order cjs.
  destruct (to_djs_text show r coh nob uni peek order cjs) as [f0 Hf]. exists f0. intros fuel Hfuel.
  destruct (Hf fuel Hfuel) as (defs & bodies & body & E & lens & _ & subs & sh & texts & before & Hw).
  eexists. split; [exact E|].
  pose proof (module_text show r coh num keys nop defs bodies lens subs sh texts before cjs body Hw) as Hm.
  intros t. split; [|intros ->; exact Hm]. intros Ht. exact (program_unique _ _ _ _ Ht _ Hm).
Qed.
Print Assumptions C56_text.

(** An object with a key [__proto__] is not kept: whatever is written for a value that
    contains one does not mean that value in JavaScript, where such a member of an object
    literal sets the prototype. *)
Theorem C56_proto_refuted : forall show r i l, sub r (AObject i l) -> In (txt "__proto__") (map fst l) ->
  forall peek fuel cjs text, to_djs show peek fuel r cjs = Ok text -> ~ js_program [] cjs text (erase r).
Proof.
  intros show r i l Hs Hk peek fuel cjs text _ Hm. apply (no_proto_program _ _ _ _ Hm); [intros x u; discriminate|].
  exact (erase_proto r i l Hs Hk).
Qed.
Print Assumptions C56_proto_refuted.

(** A module with shared blocks, a lone surrogate and minus zero. *)
Definition show_zero (f : Z) : list Z := if f =? 2 ^ 63 then txt "-0" else show_two f.
Definition c56_odd : any := AArray 9 [c56_value; AString [0xD83D; 34]; ANumber (2 ^ 63)].
Example C56_text_case :
  to_djs show_zero first_key 10 c56_odd false
   = Ok (txt "const _0=[2];const _1={""p"":_0,""q"":_0};export default [[_1,[_1],_0],""" ++ [92] ++ txt "uD83D" ++ [92] ++ txt """"",-0]")
  /\ to_djs show_zero first_key 10 (AObject 1 [(txt "__proto__", ANull)]) true = Ok (txt "module.exports={""__proto__"":null}").
Proof. vm_compute. auto. Qed.
Lemma odd_subs b : sub c56_odd b -> b = c56_odd \/ sub c56_value b \/ b = AString [0xD83D; 34] \/ b = ANumber (2 ^ 63).
Proof.
  intros H. inversion H as [|? c ? Hc Hb]; subst; [auto|]. cbn in Hc. destruct Hc as [<-|[<-|[<-|[]]]]; [auto| |].
  - inversion Hb as [|? d ? Hd]; subst; [auto|]. destruct Hd.
  - inversion Hb as [|? d ? Hd]; subst; [auto|]. destruct Hd.
Qed.
Example C56_text_hypotheses : coherent c56_odd /\ no_bigint c56_odd /\ SerializerSpec.units c56_odd /\ numbers_exact show_zero c56_odd
  /\ distinct_keys c56_odd /\ no_proto c56_odd /\ any_order first_key.
Proof.
  assert (G : forall b, sub c56_odd b -> In b [c56_odd; AString [0xD83D; 34]; ANumber (2 ^ 63); c56_value; c56_outer; AArray 8 [c56_outer]; c56_inner; ANumber 0x4000000000000000]).
  { intros b Hb. apply odd_subs in Hb as [->|[Hb|[->| ->]]]; cbn [In]; auto. apply c56_subs in Hb. cbn [In] in Hb. tauto. }
  split; [|split; [|split; [|split; [|split; [|split]]]]].
  - intros b c i Hb Hc Ib Ic. apply G in Hb, Hc. cbn [In] in Hb, Hc.
    repeat match goal with H : _ \/ _ |- _ => destruct H as [<-|H] | H : False |- _ => destruct H end; cbn in Ib, Ic; try discriminate; try reflexivity;
      exfalso; rewrite <- Ib in Ic; vm_compute in Ic; discriminate.
  - intros b Hb x ->. apply G in Hb. cbn [In] in Hb. intuition discriminate.
  - intros b Hb. apply G in Hb. cbn [In] in Hb.
    repeat match goal with H : _ \/ _ |- _ => destruct H as [<-|H] | H : False |- _ => destruct H end; cbn; auto;
      repeat constructor; unfold unit16; cbn; lia.
  - intros f Hf. apply G in Hf. cbn [In] in Hf.
    destruct Hf as [Hf|[Hf|[Hf|[Hf|[Hf|[Hf|[Hf|[Hf|[]]]]]]]]]; try discriminate; injection Hf as <-.
    + exists {| nl_neg := true; nl_int := [48]; nl_frac := []; nl_exp := None |}.
      split; [split; [split; [repeat constructor|auto]|split; [constructor|exact I]]|]. split; [reflexivity|].
      unfold literal_value. cbn [nl_neg]. apply f64_exact; try reflexivity; [lia|]. vm_compute. lra.
    + exists {| nl_neg := false; nl_int := [50]; nl_frac := []; nl_exp := None |}.
      split; [split; [split; [repeat constructor|right; exists 50, []; split; [reflexivity|lia]]|split; [constructor|exact I]]|]. split; [reflexivity|].
      unfold literal_value. cbn [nl_neg]. apply f64_exact; try reflexivity; [lia|]. vm_compute. lra.
  - intros i l Hl. apply G in Hl. cbn [In] in Hl.
    destruct Hl as [Hf|[Hf|[Hf|[Hf|[Hf|[Hf|[Hf|[Hf|[]]]]]]]]]; try discriminate. injection Hf as <- <-. repeat constructor; cbn; intuition discriminate.
  - intros i l Hl. apply G in Hl. cbn [In] in Hl.
    destruct Hl as [Hf|[Hf|[Hf|[Hf|[Hf|[Hf|[Hf|[Hf|[]]]]]]]]]; try discriminate. injection Hf as <- <-. vm_compute. intuition discriminate.
  - split; [reflexivity|]. intros [|[i a] m] Hm; [congruence|]. exists i, a. cbn. auto.
Qed.
