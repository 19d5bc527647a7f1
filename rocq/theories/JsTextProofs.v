(** Serialized modules as JavaScript text. *)
From Coq Require Import ZArith List Bool String Lia.
From Coq Require Import ZifyBool ZifyNat.
From Verif Require Import Outcome LimbsModel BigIntModel JsBigintModel BigFloatModel BigFloatSpec RangeMapSpec TokenizerModel TokenizerSpec ValueModel ParserModel ParserSpec ParserProofs
  SerializerModel SerializerSpec SerializerProofs SerializerDjs SerializerRead JsTextSpec.
Import ListNotations.
Open Scope Z_scope.

Lemma digits_digit k : forall n, 0 <= n -> Forall (fun c => 48 <= c <= 57) (digits k n).
Proof.
  induction k as [|k IH]; intros n H; cbn [digits]; [constructor|].
  destruct (Z.ltb_spec n 10); [constructor; [lia|constructor]|]. apply Forall_app. split; [apply IH, Z.div_pos; lia|].
  constructor; [|constructor]. pose proof (Z.mod_pos_bound n 10). lia.
Qed.
Lemma name_js n : js_name (name_text n).
Proof. eexists. split; [reflexivity|]. apply digits_digit. lia. Qed.

Section Show.
Variable show : Z -> list Z.

Lemma written_text share env :
  (forall a t, written show share a t -> numbers_exact show a -> distinct_keys a -> no_proto a ->
    (forall b i n, sub a b -> ident_of b = Some i -> share i = Some n -> lookup env (name_text n) = Some (erase b)) ->
    js_text env t (erase a))
  /\ (forall a t, spelled show share a t -> numbers_exact show a -> distinct_keys a -> no_proto a ->
    (forall b i n, inside a b -> ident_of b = Some i -> share i = Some n -> lookup env (name_text n) = Some (erase b)) ->
    js_text env t (erase a))
  /\ (forall l ts, elems_written show share l ts ->
    (forall c, In c l -> numbers_exact show c /\ distinct_keys c /\ no_proto c) ->
    (forall c b i n, In c l -> sub c b -> ident_of b = Some i -> share i = Some n -> lookup env (name_text n) = Some (erase b)) ->
    js_items env ts (map erase l))
  /\ (forall l ts, members_written show share l ts ->
    (forall c, In c (map snd l) -> numbers_exact show c /\ distinct_keys c /\ no_proto c) -> ~ In proto (map fst l) ->
    (forall c b i n, In c (map snd l) -> sub c b -> ident_of b = Some i -> share i = Some n -> lookup env (name_text n) = Some (erase b)) ->
    js_pairs env ts (map (fun kv => (fst kv, erase (snd kv))) l)).
Proof.
  assert (Hsub : forall a c, In c (children a) -> numbers_exact show a -> distinct_keys a -> no_proto a ->
    numbers_exact show c /\ distinct_keys c /\ no_proto c).
  { intros a c Hc H1 H2 H3. split; [|split].
    - intros f Hf. apply H1. eapply sub_child; eassumption.
    - intros i l Hl. apply (H2 i). eapply sub_child; eassumption.
    - intros i l Hl. apply (H3 i). eapply sub_child; eassumption. }
  apply written_mutind.
  - intros a i n Hi Hs _ _ _ Hn. apply jx_name; [apply name_js|]. eapply Hn; [apply sub_refl|exact Hi|exact Hs].
  - intros a text Hs _ IH H1 H2 H3 Hn. apply IH; auto. intros b i n (c & Hc & Hb) Hi. eapply Hn; [|exact Hi].
    eapply sub_child; eassumption.
  - constructor.
  - constructor.
  - constructor.
  - intros f H1 _ _ _. destruct (H1 f (sub_refl _)) as (n & Hok & E & Hv). rewrite E. apply jx_number; assumption.
  - intros s t Hq _ _ _ _. apply jx_string. exact Hq.
  - intros i l texts _ IH H1 H2 H3 Hn. cbn [erase]. apply jx_array. apply IH.
    + intros c Hc. apply (Hsub (AArray i l)); auto.
    + intros c b j n Hc Hs. apply Hn. exists c. auto.
  - intros i l texts _ IH H1 H2 H3 Hn. cbn [erase]. apply jx_object.
    + apply IH.
      * intros c Hc. apply (Hsub (AObject i l)); auto.
      * apply (H3 i), sub_refl.
      * intros c b j n Hc Hs. apply Hn. exists c. auto.
    + rewrite map_map. cbn [fst]. apply (H2 i), sub_refl.
  - intros _ _. constructor.
  - intros a l t ts _ IHa _ IHl Hr Hn. cbn [map]. constructor.
    + destruct (Hr a (or_introl eq_refl)) as (? & ? & ?). apply IHa; auto. intros; eapply Hn; [left; reflexivity| | |]; eassumption.
    + apply IHl; [intros c Hc; apply Hr; right; exact Hc|]. intros; eapply Hn; [right; eassumption| | |]; eassumption.
  - intros _ _ _. constructor.
  - intros k kt a l t ts Hq _ IHa _ IHl Hr Hp Hn. cbn [map fst snd] in *. apply jxp_cons; [|exact Hq| |].
    + intros ->. apply Hp. left. reflexivity.
    + destruct (Hr a (or_introl eq_refl)) as (? & ? & ?). apply IHa; auto. intros; eapply Hn; [left; reflexivity| | |]; eassumption.
    + apply IHl; [intros c Hc; apply Hr; right; exact Hc|intros H; apply Hp; right; exact H|].
      intros; eapply Hn; [right; eassumption| | |]; eassumption.
Qed.

Section Module.
Variable r : any.
Hypothesis coh : coherent r.
Hypothesis num : numbers_exact show r.
Hypothesis keys : distinct_keys r.
Hypothesis nop : no_proto r.
Variables (defs : list any) (bodies : list (list Z)).
Hypothesis lens : List.length bodies = List.length defs.
Hypothesis subs : forall b, In b defs -> sub r b /\ ident_of b <> None.
Hypothesis all_shared : forall i, shared r i <-> In (Some i) (map ident_of defs).
Hypothesis texts : forall k b t, nth_error defs k = Some b -> nth_error bodies k = Some t -> spelled show (index_of defs) b t.
Hypothesis before : forall k b c i, nth_error defs k = Some b -> inside b c -> ident_of c = Some i -> shared r i ->
  exists j, (j < k)%nat /\ index_of defs i = Some j.

Lemma conditions_sub b : sub r b -> numbers_exact show b /\ distinct_keys b /\ no_proto b.
Proof.
  intros Hb. split; [|split].
  - intros f Hf. apply num. eapply sub_trans; eassumption.
  - intros i l Hl. apply (keys i). eapply sub_trans; eassumption.
  - intros i l Hl. apply (nop i). eapply sub_trans; eassumption.
Qed.

Lemma declarations_text : forall suf sufb pre preb, defs = pre ++ suf -> bodies = preb ++ sufb -> List.length preb = List.length pre ->
  forall rest t cjs, js_program (env_at defs (List.length defs)) cjs rest t ->
    js_program (env_at defs (List.length pre)) cjs (declarations (List.length pre) sufb ++ rest) t.
Proof.
  induction suf as [|b suf IH]; intros sufb pre preb Ed Eb El rest tr cjs Hm.
  - assert (sufb = []).
    { destruct sufb; [reflexivity|]. rewrite Ed, Eb, !app_length in lens. cbn in lens. lia. }
    subst sufb. rewrite app_nil_r in Ed. rewrite Ed in Hm. rewrite Ed. exact Hm.
  - destruct sufb as [|t sufb].
    { exfalso. rewrite Ed, Eb, !app_length in lens. cbn in lens. lia. }
    assert (H2 := IH sufb (pre ++ [b]) (preb ++ [t])).
    specialize (H2 ltac:(rewrite <- app_assoc; exact Ed) ltac:(rewrite <- app_assoc; exact Eb) ltac:(rewrite !app_length, El; reflexivity) rest tr cjs Hm).
    rewrite app_length in H2. cbn [List.length] in H2. rewrite Nat.add_1_r in H2.
    set (k := List.length pre) in *.
    assert (Hb : nth_error defs k = Some b) by (rewrite Ed, nth_error_app2, Nat.sub_diag by (unfold k; lia); reflexivity).
    assert (Ht : nth_error bodies k = Some t) by (rewrite Eb, nth_error_app2, El, Nat.sub_diag by (unfold k; lia); reflexivity).
    assert (Hsub : sub r b) by (apply subs; eapply nth_error_In; exact Hb).
    destruct (conditions_sub b Hsub) as (H3 & H4 & H5).
    cbn [declarations]. rewrite <- !app_assoc. apply jg_const with (v := erase b).
    + apply name_js.
    + apply (env_at_fresh show). apply Nat.lt_le_incl, nth_error_Some. congruence.
    + apply (proj1 (proj2 (written_text (index_of defs) (env_at defs k))) b t (texts k b t Hb Ht)); auto.
      intros c i n Hc Hi Hn. destruct (before k b c i Hb Hc Hi (index_shared r defs all_shared i n Hn)) as (j & Hlt & Hj).
      assert (n = j) by congruence. subst j. apply (index_lookup r coh defs subs c i n k); auto.
      destruct Hc as (x & Hx & Hxc). eapply sub_trans; [exact Hsub|]. eapply sub_child; eassumption.
    + rewrite <- (env_at_succ defs k b Hb). exact H2.
Qed.

Lemma module_text cjs body : written show (index_of defs) r body ->
  js_program [] cjs (declarations O bodies ++ header cjs ++ body) (erase r).
Proof.
  intros Hw. apply (declarations_text defs bodies [] [] eq_refl eq_refl eq_refl).
  assert (Hj : js_text (env_at defs (List.length defs)) body (erase r)).
  { apply (proj1 (written_text (index_of defs) (env_at defs (List.length defs))) r body Hw); auto.
    intros c i n Hc Hi Hn. apply (index_lookup r coh defs subs c i n); auto.
    apply index_of_nth in Hn as (b & Hb & _). apply nth_error_Some. congruence. }
  destruct cjs; constructor; exact Hj.
Qed.
End Module.
End Show.

(** ** No expression has a value with a property [__proto__] *)
Inductive tree_proto : tree -> Prop :=
| tp_here kvs : In proto (map fst kvs) -> tree_proto (VObject kvs)
| tp_member kvs k t : In (k, t) kvs -> tree_proto t -> tree_proto (VObject kvs)
| tp_item ts t : In t ts -> tree_proto t -> tree_proto (VArray ts).

Lemma no_proto_text env : (forall x t, lookup env x = Some t -> ~ tree_proto t) ->
  (forall text t, js_text env text t -> ~ tree_proto t)
  /\ (forall texts ts, js_items env texts ts -> forall t, In t ts -> ~ tree_proto t)
  /\ (forall texts kvs, js_pairs env texts kvs -> ~ In proto (map fst kvs) /\ forall k t, In (k, t) kvs -> ~ tree_proto t).
Proof.
  intros Henv. apply js_text_mutind; try (intros; intros Hp; inversion Hp; fail).
  - intros x t _ Hl. exact (Henv x t Hl).
  - intros texts ts _ IH Hp. inversion Hp; subst. eapply IH; eassumption.
  - intros texts kvs _ [IH1 IH2] _ Hp. inversion Hp; subst; [auto|]. eapply IH2; eassumption.
  - intros t [].
  - intros text t texts ts _ IH1 _ IH2 u [<-|Hu]; auto.
  - split; [intros []|intros k t []].
  - intros k kt text t texts kvs Hk _ _ IH1 _ [IH2 IH3]. cbn [map fst]. split.
    + intros [H|H]; auto.
    + intros k' t' [[= <- <-]|H]; [exact IH1|eapply IH3; exact H].
  - intros kt text t texts kvs _ _ _ _ IH. exact IH.
Qed.
Lemma no_proto_program env cjs text t : js_program env cjs text t -> (forall x u, lookup env x = Some u -> ~ tree_proto u) -> ~ tree_proto t.
Proof.
  induction 1 as [env cjs x a v rest t Hx Hf Ha Hp IH|env a t Ha|env a t Ha]; intros Henv.
  - apply IH. intros y u. cbn [lookup]. destruct (list_eq_dec Z.eq_dec y x); [intros [= <-]|apply Henv].
    exact (proj1 (no_proto_text env Henv) _ _ Ha).
  - exact (proj1 (no_proto_text env Henv) _ _ Ha).
  - exact (proj1 (no_proto_text env Henv) _ _ Ha).
Qed.
Lemma erase_proto a i l : sub a (AObject i l) -> In proto (map fst l) -> tree_proto (erase a).
Proof.
  intros Hs Hp. remember (AObject i l) as b eqn:E. induction Hs as [b|a c b Hc Hs IH].
  - subst b. cbn [erase]. apply tp_here. rewrite map_map. exact Hp.
  - specialize (IH E). destruct a; cbn [children] in Hc; try contradiction; cbn [erase].
    + eapply tp_item; [apply in_map; exact Hc|exact IH].
    + apply in_map_iff in Hc as (kv & <- & Hc). eapply tp_member; [|exact IH]. 
      apply (in_map (fun kv => (fst kv, erase (snd kv)))) in Hc. exact Hc.
Qed.
