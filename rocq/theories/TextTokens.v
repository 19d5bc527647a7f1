(** The tokens of a text, and the strings of the values made from them, are texts. *)
From Coq Require Import ZArith List Bool Lia String.
From Coq Require Import ZifyBool.
From Verif Require Import Outcome JsBigintModel RangeMapModel TokenizerModel TokenizerSpec TokenizerProofs TokenizerRun ValueModel
  ParserModel ParserSpec BTreeProofs ParserProofs ParserRun ParserModules ParserMore TextSpec TextProofs.
Import ListNotations.
Open Scope Z_scope.

(** ** The tokenizer *)
Definition text_token (t : token) : Prop :=
  match t with TString s | TId s => Forall scalar_value s | _ => True end.
Definition text_state (st : tstate) : Prop :=
  match st with
  | ParseId s | ParseString s | ParseEscapeChar s | ParseUnicodeChar s _ _ => Forall scalar_value s
  | _ => True
  end.
Definition texts (o : outcome (list token * tstate)) : Prop :=
  match o with Ok (toks, st) => Forall text_token toks /\ text_state st | _ => True end.

Ltac lst := repeat first [apply Forall_nil | apply Forall_cons].
Lemma texts_one s c : Forall scalar_value s -> scalar_value c -> Forall scalar_value (s ++ [c]).
Proof. intros H Hc. apply Forall_app. split; [exact H|lst; exact Hc]. Qed.

Lemma texts_transfer t o : text_token t -> texts o -> texts (let! (next, st') := o in Ok ([t] ++ next, st')).
Proof. intros Ht. destruct o as [[a b]| |]; cbn; auto. intros [H1 H2]. split; [constructor; assumption|exact H2]. Qed.

Lemma inner_texts fuel st c : scalar_value c -> st = Initial \/ (exists s, st = ParseString s) -> text_state st ->
  texts (push_with (fun _ _ => NoFuel) fuel st c).
Proof.
  intros Hc [->|[s ->]] Hs; cbn [push_with].
  - destruct (get_transition initial_map c) as [[[]|]| |]; cbn; repeat split; lst; auto; exact I.
  - destruct (get_transition string_map c) as [[[]|]| |]; cbn in *; try exact I; split; lst; cbn; auto using texts_one.
Qed.

Lemma from_u32_scalar n c : from_u32 n = Some c -> scalar_value c.
Proof.
  unfold from_u32. destruct (is_char n) eqn:E; [|discriminate]. intros [= <-]. unfold is_char in E. unfold scalar_value. lia.
Qed.

Lemma operator_text s t : operator_to_token s = Some t -> text_token t.
Proof.
  unfold operator_to_token. destruct s as [|c [|]]; try discriminate.
  repeat match goal with |- context [if ?b then _ else _] => destruct b; [intros [= <-]; exact I|] end. discriminate.
Qed.

Ltac fine := unfold texts, continue_string_state; cbn [app obind text_state];
  first [exact I | split; [lst; cbn; auto|auto using texts_one; fail]; fail
        | split; [lst; cbn; auto|apply texts_one; [assumption|unfold scalar_value; lia]]].
Lemma push_texts fuel st c : scalar_value c -> text_state st -> texts (push fuel st c).
Proof.
  intros Hc Hs.
  assert (HI : forall t, text_token t -> texts (let! (next, st') := push_with (fun _ _ => NoFuel) fuel Initial c in Ok ([t] ++ next, st'))).
  { intros t Ht. apply texts_transfer; [exact Ht|]. apply inner_texts; cbn; auto. }
  assert (HS : forall t s, text_token t -> Forall scalar_value s ->
    texts (let! (next, st') := push_with (fun _ _ => NoFuel) fuel (ParseString s) c in Ok ([t] ++ next, st'))).
  { intros t s Ht H. apply texts_transfer; [exact Ht|]. apply inner_texts; eauto. }
  assert (HN : forall b s e, texts (let! n := number_token fuel b s e in let! (next, st') := push_with (fun _ _ => NoFuel) fuel Initial c in Ok ([n] ++ next, st'))).
  { intros b s e. unfold number_token. destruct (bigfloat_to_f64 fuel _); cbn [obind]; [apply HI; exact I|exact I|exact I]. }
  assert (HX : forall b s fe es e, texts (let! n := exp_state_into_token fuel b s fe es e in let! (next, st') := push_with (fun _ _ => NoFuel) fuel Initial c in Ok ([n] ++ next, st'))).
  { intros. unfold exp_state_into_token. destruct (i64 _); cbn [obind]; [apply HN|exact I|exact I]. }
  assert (HE : forall b s fe es e, texts (let! st' := exp_add_digit b s fe es e c in Ok ([], st'))).
  { intros. unfold exp_add_digit. destruct (i64 (e * 10)); cbn [obind]; try exact I. destruct (i64 _); cbn [obind]; fine. }
  assert (HF : forall b s fe, texts (let! st' := frac_add_digit b s fe c in Ok ([], st'))).
  { intros. unfold frac_add_digit. destruct (add_digit b c); cbn [obind]; try exact I. destruct (i64 _); cbn [obind]; fine. }
  destruct st; cbn [text_state] in Hs; unfold push; cbn [push_with];
  match goal with |- texts (let! _ := get_transition ?m c in _) =>
    destruct (get_transition m c) as [o| |]; cbn [obind]; try exact I end.
  - destruct o as [[]|]; fine.
  - destruct o; [fine|apply HI; exact Hs].
  - destruct o as [[]|]; fine.
  - destruct o as [[]|]; [fine..|apply HS; [exact I|exact Hs]].
  - destruct o as [[]|]; [| | |apply HS; [exact I|exact Hs]]; unfold unicode_push, continue_string_state;
    (destruct (index =? 3); [match goal with |- context [from_u32 ?x] => destruct (from_u32 x) eqn:Eu; [apply from_u32_scalar in Eu|] end
     |destruct ((0 <=? index) && (index <=? 2))]; fine).
  - destruct o as [[]|]; [fine..|apply HI; exact I].
  - destruct o as [[]|]; [fine|fine|fine|apply HI; exact I|apply HI; exact I].
  - destruct o as [[]|]; [|fine|fine|fine|apply HN|apply HI; exact I]. destruct (add_digit b c); fine.
  - destruct o; [apply HF|apply HI; exact I].
  - destruct o as [[]|]; [apply HF|fine|apply HN|apply HI; exact I].
  - destruct o as [[]|]; [apply HE|fine|fine|apply HX|apply HI; exact I].
  - destruct o as [[]|]; [apply HE|apply HX|apply HI; exact I].
  - destruct o as [[]|]; [apply HE|apply HX|apply HI; exact I].
  - destruct o; apply HI; exact I.
  - destruct o; [fine|apply HI; exact I].
  - destruct o as [[]|]; fine.
  - destruct o; fine.
  - destruct o; fine.
  - destruct o as [[]|]; fine.
  - assert (HO : texts (let! tok := unwrap (operator_to_token s) in
       let! (next, st') := push_with (fun _ _ => NoFuel) fuel Initial c in Ok ([tok] ++ next, st'))).
    { destruct (operator_to_token s) as [t|] eqn:E; cbn [unwrap obind]; [|exact I]. apply HI. eapply operator_text, E. }
    destruct o; [|exact HO]. destruct (operator_to_token (s ++ [c])); [fine|exact HO].
Qed.

Lemma tend_texts fuel st : text_state st -> match tend fuel st with Ok l => Forall text_token l | _ => True end.
Proof.
  intros Hs. destruct st; cbn in *; try (repeat constructor; auto; fail).
  - unfold number_token. destruct (bigfloat_to_f64 fuel _); cbn; repeat constructor.
  - unfold number_token. destruct (bigfloat_to_f64 fuel _); cbn; repeat constructor.
  - unfold exp_state_into_token, number_token. destruct (i64 _); cbn; auto. destruct (bigfloat_to_f64 fuel _); cbn; repeat constructor.
  - destruct (operator_to_token s) as [t|] eqn:E; cbn; repeat constructor. eapply operator_text, E.
Qed.

Lemma run_texts fuel text : Forall scalar_value text -> forall st, text_state st -> texts (run fuel st text).
Proof.
  induction 1 as [|c text Hc H IH]; intros st Hs; cbn [run]; [split; [constructor|exact Hs]|].
  pose proof (push_texts fuel st c Hc Hs) as Hp. destruct (push fuel st c) as [[toks st']| |]; cbn [obind]; try exact I.
  destruct Hp as [Ht Hs']. specialize (IH st' Hs'). unfold prepend. destruct (run fuel st' text) as [[toks' s']| |]; cbn [obind]; try exact I.
  destruct IH as [Ht' Hs'']. split; [apply Forall_app; auto|exact Hs''].
Qed.

Lemma tokenize_texts fuel text toks : Forall scalar_value text -> tokenize fuel text = Ok toks -> Forall text_token toks.
Proof.
  intros Ht. rewrite tokenize_run. unfold finish. pose proof (run_texts fuel text Ht Initial I) as Hr.
  destruct (run fuel Initial text) as [[a st]| |]; cbn [obind]; try discriminate. destruct Hr as [Ha Hs].
  pose proof (tend_texts fuel st Hs) as He. destruct (tend fuel st) as [e| |]; cbn [obind]; try discriminate.
  intros [= <-]. apply Forall_app. auto.
Qed.

(** ** Values *)
Inductive text_tree : tree -> Prop :=
| tt_scalar t : (forall s, t <> VString s) -> (forall l, t <> VArray l) -> (forall l, t <> VObject l) -> text_tree t
| tt_string u s : reads_as u s -> text_tree (VString u)
| tt_array l : Forall text_tree l -> text_tree (VArray l)
| tt_object l : Forall (fun kv => (exists s, reads_as (fst kv) s) /\ text_tree (snd kv)) l -> text_tree (VObject l).

Definition env_text (env : list (list Z * tree)) : Prop := forall k t, lookup env k = Some t -> text_tree t.

Lemma lookup_Some_in env k t : lookup env k = Some t -> In (k, t) env.
Proof.
  induction env as [|[k' t'] env IH]; cbn; [discriminate|]. destruct (list_eq_dec Z.eq_dec k k') as [->|]; [intros [= ->]; auto|auto].
Qed.

Lemma gval_text (mods : list Z -> tree -> Prop) env : (forall m t, mods m t -> text_tree t) -> env_text env ->
  (forall p d a d' t, gval mods env p d a d' t -> Forall text_token a -> text_tree t)
  /\ (forall p d a d' ts, gelems mods env p d a d' ts -> Forall text_token a -> Forall text_tree ts)
  /\ (forall f d a d' kvs, gmembers mods env f d a d' kvs -> Forall text_token a ->
        Forall (fun kv => Forall scalar_value (fst kv) /\ text_tree (snd kv)) kvs).
Proof.
  intros Hm He.
  assert (Hk : forall f d tok k, key_token f d tok k -> text_token tok -> Forall scalar_value k) by (intros f d tok k []; auto).
  apply gval_mutind; intros;
    repeat match goal with
    | H : Forall _ (_ :: _) |- _ => inversion H; subst; clear H
    | H : Forall _ (_ ++ _) |- _ => apply Forall_app in H as [? ?]
    end; try (constructor; cbn; eauto; fail); eauto.
  - destruct H; try (constructor; discriminate); eauto. apply tt_string with s, units_read. assumption.
  - destruct H1 as (m & Hs & Hl & ->). apply tt_object. rewrite Forall_map. apply Forall_forall. intros [k t] Hin. cbn.
    apply (sorted_lookup m k t (proj1 (sorted_text m) Hs)) in Hin. rewrite Hl in Hin. apply lookup_Some_in in Hin. apply in_rev in Hin.
    specialize (H0 ltac:(assumption)). eapply (proj1 (Forall_forall _ _)) in H0; [|exact Hin]. destruct H0 as [H01 H02].
    split; [exists k; apply units_read, H01|exact H02].
Qed.

Lemma spread_texts a b : spread a b -> Forall text_token b -> Forall text_token a.
Proof. induction 1; auto; inversion 1; subst; auto. Qed.
Lemma gfinal_text (mods : list Z -> tree -> Prop) env d toks d' t : (forall m t, mods m t -> text_tree t) -> env_text env ->
  gfinal mods env d toks d' t -> Forall text_token toks -> text_tree t.
Proof.
  intros Hm He (a & b & n & -> & Hs & Hg) Ht. apply Forall_app in Ht as [Ht _].
  eapply (proj1 (gval_text mods env Hm He)); [exact Hg|]. eapply spread_texts; eassumption.
Qed.

Lemma gmodule_text (mods : list Z -> tree -> Prop) env d nl toks d' t : (forall m t, mods m t -> text_tree t) ->
  gmodule mods env d nl toks d' t -> env_text env -> Forall text_token toks -> text_tree t.
Proof.
  intros Hm. induction 1; intros He Ht;
    repeat match goal with
    | H : Forall _ (_ :: _) |- _ => inversion H; subst; clear H
    | H : Forall _ (_ ++ _) |- _ => apply Forall_app in H as [? ?]
    end; auto.
  - apply IHgmodule; auto. intros k' t'. cbn. destruct (list_eq_dec Z.eq_dec k' k); [intros [= <-]|apply He].
    eapply (proj1 (gval_text mods env Hm He)); [eassumption|]. eapply spread_texts; eassumption.
  - apply IHgmodule; auto. intros k' t'. cbn. destruct (list_eq_dec Z.eq_dec k' k); [intros [= <-]; eauto|apply He].
  - eapply gfinal_text; eassumption.
  - eapply gfinal_text; eassumption.
  - eapply gfinal_text; [exact Hm|exact He|eassumption|]. constructor; assumption.
Qed.

Lemma denotes_text io tf rs n : (forall p text, io p = Some text -> Forall scalar_value text) ->
  forall p d t, denotes io tf rs n p d t -> text_tree t.
Proof.
  intros Hio. induction n as [|n IH]; intros p d t H; [destruct H|]. destruct H as (text & toks & Hp & Htok & Hg).
  eapply gmodule_text; [|exact Hg| |].
  - intros m u (d' & H). eauto.
  - intros k u H. discriminate.
  - eapply tokenize_texts; [|exact Htok]. eapply Hio, Hp.
Qed.
