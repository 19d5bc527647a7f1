(** Property C84: exactly the texts of the language are accepted.  (And, for C31, C45 and C70, that a
    run has one result.) *)
From Coq Require Import ZArith Reals List Bool String Lia.
From Coq Require Import ZifyBool ZifyNat.
From Verif Require Import Outcome VTac BigIntModel JsBigintModel BigFloatModel BigSpec RangeMapSpec TextSpec TokenizerModel TokenizerSpec
  TokenizerProofs TokenizerRun TokenizerTotal TokenizerGrammar Prop_Tokenizer ValueModel ParserModel ParserSpec ParserRun ParserModules ParserMore Prop_Parser
  SerializerModel LexSpec LexSound LexComplete FuelMono.
Import ListNotations.
Open Scope Z_scope.

(** Whatever the tokenizer returns without an error token is a sequence of words, gaps and line
    breaks with these tokens. *)
Theorem C84_sound : forall fuel text toks, chars text -> tokenize fuel text = Ok toks -> no_error toks -> lexed text toks.
Proof. exact tokenize_lexed. Qed.
Print Assumptions C84_sound.

(** For texts whose decimal exponents stay in the range of the conversion, both directions. *)
Theorem C84_exact_partial : forall text toks, chars text -> calm text ->
  ((exists fuel, tokenize fuel text = Ok toks /\ no_error toks) <-> lexed text toks).
Proof.
  intros text toks Hc Hm. split.
  - intros (fuel & H & Hn). exact (tokenize_lexed fuel text toks Hc H Hn).
  - intros H. destruct (lexed_read text toks H Hm) as [f0 R]. exists f0. split; [apply R; lia|]. eapply lexed_no_error; eauto.
Qed.
Print Assumptions C84_exact_partial.

(** Every other text gets an error token. *)
Theorem C84_rejected_partial : forall text, chars text -> calm text -> (forall toks, ~ lexed text toks) ->
  exists f0 toks, (forall fuel, (f0 <= fuel)%nat -> tokenize fuel text = Ok toks) /\ exists e, In (TError e) toks.
Proof.
  intros text Hc Hm Hno. destruct (tokenize_good text Hc Hm) as (toks & [f0 H] & _). exists f0, toks. split; [exact H|].
  destruct (Forall_dec (fun t => is_error t = false) (fun t => bool_dec _ _) toks) as [Hn|Hn].
  - exfalso. exact (Hno toks (tokenize_lexed f0 text toks Hc (H f0 (Nat.le_refl _)) Hn)).
  - apply (neg_Forall_Exists_neg (fun t => bool_dec _ _)) in Hn. apply Exists_exists in Hn. destruct Hn as (t & Hi & Ht).
    destruct t; cbn in Ht; try congruence. eauto.
Qed.
Print Assumptions C84_rejected_partial.

(** The grammar gives a text one sequence of tokens. *)
Theorem C84_unambiguous_partial : forall text t1 t2, calm text -> lexed text t1 -> lexed text t2 -> t1 = t2.
Proof.
  intros text t1 t2 Hm H1 H2. destruct (lexed_read _ _ H1 Hm) as [f1 R1]. destruct (lexed_read _ _ H2 Hm) as [f2 R2].
  specialize (R1 (Nat.max f1 f2) ltac:(lia)). specialize (R2 (Nat.max f1 f2) ltac:(lia)). congruence.
Qed.
Print Assumptions C84_unambiguous_partial.

(** Without the restriction it is false: [3e-51] is a number, but it is not read. *)
Theorem C84_exact_refuted : exists text toks, chars text /\ lexed text toks /\ forall fuel, tokenize fuel text = NoFuel.
Proof.
  exists (txt "3e-51"), [TNumber 0]. split; [repeat (constructor; [vm_compute; discriminate|]); constructor|].
  split; [|exact C31_total_refuted_hang].
  assert (Hn : number_ok {| nl_neg := false; nl_int := [51]; nl_frac := []; nl_exp := Some (101, [45], [53; 49]) |}).
  { split; [split; [repeat constructor|right; exists 51, []; split; [reflexivity|lia]]|]. split; [constructor|].
    split; [left; reflexivity|]. split; [right; right; reflexivity|]. split; [discriminate|repeat constructor]. }
  assert (Hw : word (txt "3e-51") (TNumber 0) []).
  { apply (w_number _ 0 [] Hn); [|exact I]. split; [reflexivity|]. intros _ H. exfalso. apply H. reflexivity. }
  exact (lx_word _ _ [] [] Hw lx_end).
Qed.
Print Assumptions C84_exact_refuted.

(** * One result *)
Theorem C31_one_result : forall text n m, tokenize n text <> NoFuel -> tokenize m text <> NoFuel -> tokenize n text = tokenize m text.
Proof. intros text. apply upto_agree. intros. apply tokenize_more. assumption. Qed.
Print Assumptions C31_one_result.

(** Loading a module and running the converter: two bounds under which the run ends give the same
    result (a value, an error or a panic). *)
Theorem C45_one_result : forall io c n m d d', parse io n d c <> NoFuel -> parse io m d' c <> NoFuel -> parse io n d c = parse io m d' c.
Proof.
  intros io c n m d d' H1 H2.
  pose proof (parse_more io n (Nat.max n m) d (Nat.max d d') c ltac:(lia) ltac:(lia)) as U1.
  pose proof (parse_more io m (Nat.max n m) d' (Nat.max d d') c ltac:(lia) ltac:(lia)) as U2.
  destruct (parse io n d c), (parse io m d' c); cbn in U1, U2; congruence.
Qed.
Print Assumptions C45_one_result.
Theorem C70_one_result : forall show peek disk args io n m d d' k k',
  app_run show peek disk n d k args io <> NoFuel -> app_run show peek disk m d' k' args io <> NoFuel ->
  app_run show peek disk n d k args io = app_run show peek disk m d' k' args io.
Proof.
  intros show peek disk args io n m d d' k k' H1 H2.
  pose proof (app_run_more show peek disk n (Nat.max n m) d (Nat.max d d') k (Nat.max k k') args io ltac:(lia) ltac:(lia) ltac:(lia)) as U1.
  pose proof (app_run_more show peek disk m (Nat.max n m) d' (Nat.max d d') k' (Nat.max k k') args io ltac:(lia) ltac:(lia) ltac:(lia)) as U2.
  destruct (app_run show peek disk n d k args io), (app_run show peek disk m d' k' args io); cbn in U1, U2; congruence.
Qed.
Print Assumptions C70_one_result.

(** * Modules as texts *)

(** The grammar has no error tokens. *)
Lemma no_error_app a b : no_error (a ++ b) <-> no_error a /\ no_error b.
Proof. apply Forall_app. Qed.
Lemma no_error_newlines n : no_error (repeat TNewLine n).
Proof. induction n; constructor; auto. Qed.
Lemma spread_no_error a b : spread a b -> no_error a -> no_error b.
Proof. induction 1; intros Ha; [constructor|constructor; [reflexivity|exact (IHspread Ha)]|]. inversion Ha; subst. constructor; [assumption|apply IHspread; assumption]. Qed.
Lemma gval_no_error mods :
  (forall env p d a d' t, gval mods env p d a d' t -> no_error a) /\
  (forall env p d a d' ts, gelems mods env p d a d' ts -> no_error a) /\
  (forall env f d a d' kvs, gmembers mods env f d a d' kvs -> no_error a).
Proof.
  cut (forall env, (forall p d a d' t, gval mods env p d a d' t -> no_error a) /\
  (forall p d a d' ts, gelems mods env p d a d' ts -> no_error a) /\
  (forall f d a d' kvs, gmembers mods env f d a d' kvs -> no_error a)).
  { intros H. split; [|split]; intros env; apply H. }
  intros env. assert (K : forall f d tok k, key_token f d tok k -> is_error tok = false) by (destruct 1; reflexivity).
  apply gval_mutind; intros; unfold no_error in *;
    repeat first [apply Forall_nil | apply Forall_cons; [first [reflexivity | eapply K; eassumption]|] | apply Forall_app; split | assumption].
  constructor; [|constructor]. destruct H; reflexivity.
Qed.
Lemma gmodule_no_error mods env d nl toks d' t : gmodule mods env d nl toks d' t -> no_error toks.
Proof.
  destruct (gval_no_error mods) as (Hv & _ & _).
  assert (F : forall env d toks d' t, gfinal mods env d toks d' t -> no_error toks).
  { intros env0 d0 toks0 d0' t0 (a & b & n & -> & Hs & Hg). apply no_error_app. split; [|apply no_error_newlines].
    apply (spread_no_error _ _ Hs). eapply Hv; eauto. }
  induction 1; repeat (apply Forall_cons; [reflexivity|]); try assumption; try (eapply F; eassumption).
  apply no_error_app. split; [|assumption]. eapply spread_no_error; [eassumption|]. eapply Hv; eauto.
Qed.

(** What the module at a path denotes, from the texts of the files: no tokenizer, no parser. *)
Section Meaning.
Variable io : list Z -> option (list Z).
Variable resolve : list Z -> list Z -> list Z.
Fixpoint means (n : nat) (p : list Z) (d : data_type) (t : tree) : Prop :=
  match n with
  | O => False
  | S n' => exists text toks, io p = Some text /\ lexed text toks
      /\ gmodule (fun m t' => exists d', means n' (resolve p m) d' t') [] Json true toks d t
  end.
End Meaning.

(** Growing module denotations. *)
Section Grow.
Variable M : list Z -> tree -> Prop.
Variable N : nat -> list Z -> tree -> Prop.
Hypothesis HMN : forall m t, M m t -> exists f0, forall f, (f0 <= f)%nat -> N f m t.
Local Notation eventually P := (exists f0, forall f, (f0 <= f)%nat -> P f).
Lemma gval_grow env :
  (forall p d a d' t, gval M env p d a d' t -> eventually (fun f => gval (N f) env p d a d' t)) /\
  (forall p d a d' ts, gelems M env p d a d' ts -> eventually (fun f => gelems (N f) env p d a d' ts)) /\
  (forall g d a d' kvs, gmembers M env g d a d' kvs -> eventually (fun f => gmembers (N f) env g d a d' kvs)).
Proof.
  apply gval_mutind.
  - intros. exists O. intros. constructor; auto.
  - intros p d m t Hr Hm. destruct (HMN m t Hm) as [f0 H0]. exists f0. intros f Hf. apply gv_require; auto.
  - intros p d body d' ts _ [f0 H]. exists f0. intros f Hf. apply gv_array. auto.
  - intros p d body d' kvs o _ [f0 H] Ho. exists f0. intros f Hf. eapply gv_object; eauto.
  - intros. exists O. intros. constructor.
  - intros p d a d' t _ [f0 H]. exists f0. intros f Hf. constructor. auto.
  - intros p d a d1 t b d' ts _ [f0 H] _ [f1 H1]. exists (Nat.max f0 f1). intros f Hf. eapply ge_cons; [apply H|apply H1]; lia.
  - intros. exists O. intros. constructor.
  - intros g d tok k a d' t Hk _ [f0 H]. exists f0. intros f Hf. constructor; auto.
  - intros g d tok k a d1 t b d' kvs Hk _ [f0 H] _ [f1 H1]. exists (Nat.max f0 f1). intros f Hf. eapply gm_cons; [exact Hk|apply H|apply H1]; lia.
Qed.
Lemma gfinal_grow env d toks d' t : gfinal M env d toks d' t -> eventually (fun f => gfinal (N f) env d toks d' t).
Proof.
  intros (a & b & n & E & Hs & Hg). destruct (proj1 (gval_grow env) _ _ _ _ _ Hg) as [f0 H]. exists f0. intros f Hf. exists a, b, n. auto.
Qed.
Lemma gmodule_grow env d nl toks d' t : gmodule M env d nl toks d' t -> eventually (fun f => gmodule (N f) env d nl toks d' t).
Proof.
  induction 1 as [env d nl toks d' t _ [f0 IH]|env d k a b v d1 rest d' t Hs Hg _ [f0 IH]|env d k m v rest d' t Hd Hm _ [f0 IH]
    |env d toks d' t Hd Hg|env d toks d' t Hd Hg|env d tok toks d' t Ho Hn Hg].
  - exists f0. intros. constructor. auto.
  - destruct (proj1 (gval_grow env) _ _ _ _ _ Hg) as [f1 H1]. exists (Nat.max f0 f1). intros f Hf. eapply gs_const; [exact Hs|apply H1; lia|apply IH; lia].
  - destruct (HMN m v Hm) as [f1 H1]. exists (Nat.max f0 f1). intros f Hf. eapply gs_import; [exact Hd|apply H1; lia|apply IH; lia].
  - destruct (gfinal_grow _ _ _ _ _ Hg) as [f1 H1]. exists f1. intros. apply gs_export; auto.
  - destruct (gfinal_grow _ _ _ _ _ Hg) as [f1 H1]. exists f1. intros. apply gs_exports; auto.
  - destruct (gfinal_grow _ _ _ _ _ Hg) as [f1 H1]. exists f1. intros. apply gs_value; auto.
Qed.
End Grow.

Definition char_files (io : list Z -> option (list Z)) : Prop := forall p text, io p = Some text -> chars text.
Definition calm_files (io : list Z -> option (list Z)) : Prop := forall p text, io p = Some text -> calm text.

Lemma denotes_means io tf rs : char_files io -> forall n p d t, denotes io tf rs n p d t -> means io rs n p d t.
Proof.
  intros Hc. induction n as [|n IH]; intros p d t H; [exact H|]. destruct H as (text & toks & H1 & H2 & H3). exists text, toks.
  split; [exact H1|]. split; [exact (tokenize_lexed tf text toks (Hc p text H1) H2 (gmodule_no_error _ _ _ _ _ _ _ H3))|].
  destruct (gmodule_grow (fun m t' => exists d', denotes io tf rs n (rs p m) d' t') (fun _ m t' => exists d', means io rs n (rs p m) d' t')
    (fun m t' (Hm : exists d', denotes io tf rs n (rs p m) d' t') => ex_intro _ O (fun _ _ => match Hm with ex_intro _ d' Hd => ex_intro _ d' (IH _ _ _ Hd) end))
    _ _ _ _ _ _ H3) as [f0 H]. exact (H f0 (Nat.le_refl _)).
Qed.
Lemma means_denotes io rs : calm_files io -> forall n p d t, means io rs n p d t -> exists f0, forall tf, (f0 <= tf)%nat -> denotes io tf rs n p d t.
Proof.
  intros Hc. induction n as [|n IH]; intros p d t H; [destruct H|]. destruct H as (text & toks & H1 & H2 & H3).
  destruct (lexed_read text toks H2 (Hc p text H1)) as [f1 R].
  destruct (gmodule_grow (fun m t' => exists d', means io rs n (rs p m) d' t') (fun tf m t' => exists d', denotes io tf rs n (rs p m) d' t')
    ) with (env := @nil (list Z * tree)) (d := Json) (nl := true) (toks := toks) (d' := d) (t := t) as [f0 H].
  - intros m t' (d' & Hm). destruct (IH _ _ _ Hm) as [f0 H]. exists f0. intros f Hf. exists d'. auto.
  - exact H3.
  - exists (Nat.max f0 f1). intros tf Hf. exists text, toks. split; [exact H1|]. split; [apply R; lia|]. apply H. lia.
Qed.

(** Whatever the parser returns, for texts of any kind, is what the files denote by the grammar of
    the texts. *)
Theorem C84_modules_sound : forall io tf depth R k c' d v, char_files io -> parse io tf depth (fresh R k) = Ok (c', inl (d, v)) ->
  exists n, means io (at_root R) n R d (erase v).
Proof.
  intros io tf depth R k c' d v Hc H. destruct (parse_sound io tf R depth k c' d v H) as (n & Hn). exists n. exact (denotes_means io tf _ Hc n R d _ Hn).
Qed.
Print Assumptions C84_modules_sound.

(** The parser returns a value exactly when the texts of the files denote it. *)
Theorem C84_modules_partial : forall io R k d t, char_files io -> calm_files io ->
  ((exists tf depth c' v, parse io tf depth (fresh R k) = Ok (c', inl (d, v)) /\ erase v = t) <-> exists n, means io (at_root R) n R d t).
Proof.
  intros io R k d t Hc Hm. split.
  - intros (tf & depth & c' & v & H & <-). exact (C84_modules_sound io tf depth R k c' d v Hc H).
  - intros (n & H). destruct (means_denotes io _ Hm n R d t H) as [f0 Hd]. exists f0.
    apply (C39_modules io f0 R k d t). exists n. apply Hd. lia.
Qed.
Print Assumptions C84_modules_partial.

(** JSON mode: the text alone decides. *)
Theorem C84_json_partial : forall text io R k t, io R = Some text -> chars text -> calm text ->
  ((exists tf depth c' v, parse io tf depth (fresh R k) = Ok (c', inl (Json, v)) /\ erase v = t) <->
   exists toks, lexed text toks /\ json_text toks t).
Proof.
  intros text io R k t Hio Hc Hm. split.
  - intros (tf & depth & c' & v & H & <-). destruct depth as [|depth].
    { unfold parse in H. cbn [fresh cx_path] in H. rewrite Hio in H. destruct (tokenize tf text); discriminate. }
    unfold parse in H. cbn [fresh cx_path] in H. rewrite Hio in H. destruct (tokenize tf text) as [toks| |] eqn:Et; try discriminate. cbn [obind] in H.
    exists toks. assert (Hj : json_text toks (erase v)) by (apply (C39_json (import_with io tf (parse_tokens io tf depth)) (cx_reading (fresh R k) R) toks (erase v)); exists c', v; split; [exact H|reflexivity]).
    split; [|exact Hj]. apply (tokenize_lexed tf text toks Hc Et). destruct Hj as (n0 & a & b & n & -> & Hs & Hv).
    apply no_error_app. split; [apply no_error_newlines|]. apply no_error_app. split; [|apply no_error_newlines].
    apply (spread_no_error _ _ Hs). apply (proj1 (json_gval (fun _ _ => True))) with (p := PElsewhere) in Hv.
    eapply (proj1 (gval_no_error _)); eauto.
  - intros (toks & Hl & Hj). destruct (lexed_read text toks Hl Hm) as [f0 R0]. exists f0, 1%nat.
    unfold parse. cbn [fresh cx_path]. rewrite Hio, (R0 f0 (Nat.le_refl _)). cbn [obind].
    apply (C39_json (import_with io f0 (parse_tokens io f0 0)) (cx_reading (fresh R k) R) toks t). exact Hj.
Qed.
Print Assumptions C84_json_partial.

(** Words of every kind; and a text that is none. *)
Definition c84_text : list Z := txt "{a:[-0,1e ,12.50E+1,""x\n""],/* ** */b:3n}" ++ [10; 9] ++ txt "// end".
Example C84_case : exists toks, lexed c84_text toks /\ List.length toks = 18%nat /\ In (TNumber 0) toks /\ In (TNumber 4638496509959077888) toks
  /\ In (TString [120; 10]) toks.
Proof.
  eexists. split.
  - apply (C84_sound 200 c84_text); [unfold c84_text; vm_compute; repeat (constructor; [discriminate|]); constructor|vm_compute; reflexivity|].
    repeat (constructor; [reflexivity|]); constructor.
  - vm_compute. tauto.
Qed.
Definition c84_bad : list Z := txt "a'b".
Example C84_case_bad : forall toks, ~ lexed c84_bad toks.
Proof.
  assert (Hc : chars c84_bad) by (repeat (constructor; [vm_compute; discriminate|]); constructor).
  assert (Hm : calm c84_bad).
  { split; [vm_compute; reflexivity|]. intros p d frac n ex v q E Hd. exfalso.
    assert (Hi : In d c84_bad) by (rewrite E; apply in_app_iff; right; left; reflexivity).
    cbn in Hi. destruct Hi as [<-|[<-|[<-|[]]]]; discriminate. }
  intros toks H. apply (C84_exact_partial c84_bad toks Hc Hm) in H. destruct H as (fuel & Ht & Hn). vm_compute in Ht. inversion Ht; subst.
  inversion Hn as [|? ? ? Hn']; subst. inversion Hn'; subst. discriminate.
Qed.
