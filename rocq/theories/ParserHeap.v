(** The values that the parser builds are pictures of one heap: a block that occurs in several
    places has the same content everywhere. *)
From Coq Require Import ZArith List Bool Lia.
From Verif Require Import Outcome TokenizerModel ValueModel BTreeProofs ParserModel SerializerModel SerializerSpec.
Import ListNotations.
Open Scope Z_scope.

(** All blocks inside [a] are older than [n] and have the contents that [h] gives. *)
Definition fits (h : Z -> any) (n : Z) (a : any) : Prop := forall b i, sub a b -> ident_of b = Some i -> i < n /\ h i = b.
(** [h'] up to [n'] extends [h] up to [n]. *)
Definition ext (h : Z -> any) (n : Z) (h' : Z -> any) (n' : Z) : Prop := n <= n' /\ forall i, i < n -> h' i = h i.

Lemma ext_refl h n : ext h n h n.
Proof. split; [lia|auto]. Qed.
Lemma ext_trans h1 n1 h2 n2 h3 n3 : ext h1 n1 h2 n2 -> ext h2 n2 h3 n3 -> ext h1 n1 h3 n3.
Proof. intros [A B] [C D]. split; [lia|]. intros i Hi. rewrite D, B by lia. reflexivity. Qed.
Lemma fits_ext h n h' n' a : ext h n h' n' -> fits h n a -> fits h' n' a.
Proof. intros [A B] H b i Hb Hi. destruct (H b i Hb Hi) as [H1 H2]. split; [lia|]. rewrite B by exact H1. exact H2. Qed.
Lemma fits_leaf h n a : ident_of a = None -> children a = [] -> fits h n a.
Proof.
  intros H1 H2 b i Hb Hi. inversion Hb as [|x c y Hc _]; subst; [congruence|]. rewrite H2 in Hc. contradiction.
Qed.
Lemma fits_coherent h n a : fits h n a -> coherent a.
Proof. intros H b c i Hb Hc Eb Ec. destruct (H b i Hb Eb) as [_ <-]. destruct (H c i Hc Ec) as [_ <-]. reflexivity. Qed.

(** A new block. *)
Lemma fits_block h n a : ident_of a = Some n -> Forall (fits h n) (children a) -> exists h', ext h n h' (n + 1) /\ fits h' (n + 1) a.
Proof.
  intros Hi Hc. set (h' := fun i => if i =? n then a else h i). exists h'.
  assert (He : ext h n h' (n + 1)). { split; [lia|]. intros i Hl. unfold h'. destruct (Z.eqb_spec i n); [lia|reflexivity]. }
  split; [exact He|]. intros b i Hb Eb. inversion Hb as [|x c y Hin Hs]; subst.
  - assert (i = n) by congruence. subst i. split; [lia|]. unfold h'. rewrite Z.eqb_refl. reflexivity.
  - rewrite Forall_forall in Hc. apply (fits_ext _ _ _ _ _ He (Hc c Hin) b i Hs Eb).
Qed.

(** * States *)
Definition vfits (h : Z -> any) (n : Z) (kv : list Z * any) : Prop := fits h n (snd kv).
Definition el_fits h n (e : stack_element) : Prop :=
  match e with StObject m _ => Forall (vfits h n) m | StArray l => Forall (fits h n) l end.
Definition cur_fits h n (e : json_element) : Prop := match e with JNone => True | JStack e => el_fits h n e | JAny a => fits h n a end.
Definition st_fits h n (s : any_state) : Prop :=
  cur_fits h n (as_current s) /\ Forall (el_fits h n) (as_stack s) /\ Forall (vfits h n) (as_consts s).
Definition res_fits h n (r : any_result) : Prop :=
  match r with RContinue s => st_fits h n s | RSuccess s v => st_fits h n s /\ fits h n v | RError _ => True end.
Definition js_fits h n (j : json_state) : Prop :=
  match j with PRoot r => st_fits h n (rs_state r) | PConst _ s | PModule s => st_fits h n s | PResult _ v => fits h n v | PError _ => True end.
Definition cx_fits h (c : context) : Prop := Forall (vfits h (cx_next c)) (cx_complete c).

Lemma vfits_ext h n h' n' m : ext h n h' n' -> Forall (vfits h n) m -> Forall (vfits h' n') m.
Proof. intros He. apply Forall_impl. intros kv. apply fits_ext, He. Qed.
Lemma el_ext h n h' n' e : ext h n h' n' -> el_fits h n e -> el_fits h' n' e.
Proof. intros He. destruct e; cbn [el_fits]; [apply vfits_ext, He|apply Forall_impl; intros a; apply fits_ext, He]. Qed.
Lemma cur_ext h n h' n' e : ext h n h' n' -> cur_fits h n e -> cur_fits h' n' e.
Proof. intros He. destruct e; cbn [cur_fits]; [auto|apply el_ext, He|apply fits_ext, He]. Qed.
Lemma st_ext h n h' n' s : ext h n h' n' -> st_fits h n s -> st_fits h' n' s.
Proof.
  intros He (A & B & C). split; [apply (cur_ext _ _ _ _ _ He A)|]. split; [|apply (vfits_ext _ _ _ _ _ He C)].
  revert B. apply Forall_impl. intros e. apply el_ext, He.
Qed.
Lemma insert_fits h n m k v : Forall (vfits h n) m -> fits h n v -> Forall (vfits h n) (bt_insert m k v).
Proof.
  intros Hm Hv. induction Hm as [|[k' v'] m H Hm IH]; cbn [bt_insert]; [constructor; [exact Hv|constructor]|].
  destruct (str_cmp k k'); constructor; auto.
Qed.
Lemma get_fits h n m k v : Forall (vfits h n) m -> bt_get m k = Some v -> fits h n v.
Proof. intros Hm Hg. apply bt_get_In in Hg. rewrite Forall_forall in Hm. exact (Hm _ Hg). Qed.

Lemma push_value_fits h n s v r : st_fits h n s -> fits h n v -> push_value s v = Ok r -> res_fits h n r.
Proof.
  intros (A & B & C) Hv. unfold push_value. destruct (as_current s) as [|[m k|l]|] eqn:E; cbn [cur_fits el_fits] in A; intros [= <-]; cbn [res_fits].
  - split; [|exact Hv]. split; [cbn; rewrite E; exact I|]. split; [exact B|exact C].
  - split; [cbn; apply insert_fits; assumption|]. split; [exact B|exact C].
  - split; [cbn; apply Forall_app; split; [exact A|constructor; [exact Hv|constructor]]|]. split; [exact B|exact C].
Qed.
Lemma push_key_fits h n s k : st_fits h n s -> res_fits h n (push_key s k).
Proof.
  intros (A & B & C). unfold push_key. destruct (as_current s) as [|[m k'|l]|] eqn:E; try exact I.
  split; [exact A|]. split; [exact B|exact C].
Qed.
Lemma pushed_fits h n s : st_fits h n s -> Forall (el_fits h n) (pushed_stack s).
Proof. intros (A & B & C). unfold pushed_stack. destruct (as_current s); [exact B|constructor; [exact A|exact B]|exact B]. Qed.
Lemma begin_fits h n s : st_fits h n s -> res_fits h n (begin_array s) /\ res_fits h n (begin_object s) /\ res_fits h n (begin_import s).
Proof.
  intros H. pose proof (pushed_fits h n s H) as P. destruct H as (A & B & C).
  repeat split; cbn; auto.
Qed.
Lemma popped_fits h n s : st_fits h n s -> st_fits h n (popped s).
Proof.
  intros (A & B & C). unfold popped. destruct (as_stack s) as [|e st] eqn:E.
  - split; [exact I|]. split; [cbn; rewrite E; constructor|exact C].
  - inversion B; subst. split; [assumption|]. split; [assumption|exact C].
Qed.
Lemma set_status_fits h n s x : st_fits h n s -> st_fits h n (set_status s x).
Proof. intros H. exact H. Qed.

Lemma token_fits h n t m v : Forall (vfits h n) m -> try_to_any t m = Some v -> fits h n v.
Proof.
  intros Hm. unfold try_to_any, try_id_to_any. destruct t; try discriminate; try (intros [= <-]; apply fits_leaf; reflexivity).
  repeat (destruct (str_eqb _ _); [intros [= <-]; apply fits_leaf; reflexivity|]). apply get_fits, Hm.
Qed.
Lemma scalar_fits h n s t r : st_fits h n s -> parse_scalar s t = Ok r -> res_fits h n r.
Proof.
  intros H. unfold parse_scalar. destruct (try_to_any t (as_consts s)) as [a|] eqn:E; [|intros [= <-]; exact I].
  apply push_value_fits; [exact H|]. destruct H as (_ & _ & C). apply (token_fits _ _ _ _ _ C E).
Qed.
Lemma parse_value_fits h n s t r : st_fits h n s -> parse_value s t = Ok r -> res_fits h n r.
Proof.
  intros H. pose proof (begin_fits h n s H) as (B1 & B2 & B3). unfold parse_value.
  destruct t; try (apply scalar_fits, H); try (intros [= <-]; assumption).
  destruct (_ && _); [intros [= <-]; exact B3|apply scalar_fits, H].
Qed.

(** A step that allocates at most one block. *)
Definition kept h n (r : any_result) n' : Prop := exists h', ext h n h' n' /\ res_fits h' n' r.
Lemma kept_here h n r : res_fits h n r -> kept h n r n.
Proof. intros H. exists h. split; [apply ext_refl|exact H]. Qed.
Lemma pure_kept h n r r' n' : res_fits h n r -> pure n r = Ok (r', n') -> kept h n r' n'.
Proof. intros H [= <- <-]. apply kept_here, H. Qed.
Lemma opure_kept h n o r' n' : (forall r, o = Ok r -> res_fits h n r) -> opure n o = Ok (r', n') -> kept h n r' n'.
Proof.
  intros H. unfold opure. destruct o as [r| |]; cbn [obind]; [|discriminate|discriminate]. intros [= <- <-]. apply kept_here, H. reflexivity.
Qed.
Lemma block_kept h n s a r n' : st_fits h n s -> ident_of a = Some n -> Forall (fits h n) (children a) ->
  opure (n + 1) (push_value (popped s) a) = Ok (r, n') -> kept h n r n'.
Proof.
  intros H Hi Hc. destruct (fits_block h n a Hi Hc) as (h' & He & Hf). unfold opure.
  destruct (push_value (popped s) a) as [r0| |] eqn:E; cbn [obind]; [|discriminate|discriminate]. intros [= <- <-].
  exists h'. split; [exact He|]. apply (push_value_fits h' (n + 1) (popped s) a); [|exact Hf|exact E].
  apply popped_fits, (st_ext _ _ _ _ _ He H).
Qed.
Lemma end_array_kept h n s r n' : st_fits h n s -> end_array s n = Ok (r, n') -> kept h n r n'.
Proof.
  intros H. unfold end_array. destruct (as_current s) as [|[m k|l]|] eqn:E; try discriminate. apply block_kept; [exact H|reflexivity|].
  destruct H as (A & _). rewrite E in A. exact A.
Qed.
Lemma end_object_kept h n s r n' : st_fits h n s -> end_object s n = Ok (r, n') -> kept h n r n'.
Proof.
  intros H. unfold end_object. destruct (as_current s) as [|[m k|l]|] eqn:E; try discriminate. apply block_kept; [exact H|reflexivity|].
  destruct H as (A & _). rewrite E in A. cbn [cur_fits el_fits children] in *. clear -A. induction A; cbn; constructor; assumption.
Qed.

Lemma common_kept h n s t r n' : st_fits h n s -> any_parse_common s n t = Ok (r, n') -> kept h n r n'.
Proof.
  intros H. pose proof (begin_fits h n s H) as (B1 & B2 & B3).
  assert (Hs : opure n (parse_scalar s t) = Ok (r, n') -> kept h n r n') by (apply opure_kept; intros r0; apply scalar_fits, H).
  assert (Hu : forall e, pure n (RError e) = Ok (r, n') -> kept h n r n') by (intros e; apply pure_kept; exact I).
  assert (Hk : forall x, pure n (RContinue (set_status s x)) = Ok (r, n') -> kept h n r n') by (intros x; apply pure_kept; exact H).
  unfold any_parse_common. destruct (as_status s).
  all: try (apply opure_kept; intros r0; apply parse_value_fits, H).
  all: unfold parse_array_begin, parse_array_value, parse_array_comma, parse_object_begin, parse_object_key, parse_object_next, parse_object_comma,
         parse_import_begin, parse_import_end; try discriminate; destruct t; try exact Hs; try apply Hu; try apply Hk.
  all: try (apply (pure_kept h n), begin_fits, H); try (apply end_array_kept, H); try (apply end_object_kept, H); try (apply pure_kept, push_key_fits, H).
  all: try (destruct (_ && _); [apply (pure_kept h n), begin_fits, H|exact Hs]).
  all: try (destruct (is_djs _); [apply pure_kept, push_key_fits, H|apply Hu]).
  all: try (apply opure_kept; intros r0 [= <-]; exact I).
  apply opure_kept. intros r0. unfold end_import. destruct (as_current s) as [|e|a] eqn:E; try discriminate. apply push_value_fits.
  - apply popped_fits. exact H.
  - destruct H as (A & _). rewrite E in A. exact A.
Qed.

(** * Statements and modules *)
Definition good h n (j : json_state) (c : context) : Prop := exists h', ext h n h' (cx_next c) /\ js_fits h' (cx_next c) j /\ cx_fits h' c.
Definition load_ok (load : loader) : Prop := forall h c m c' r, cx_fits h c -> load c m = Ok (c', r) ->
  exists h', ext h (cx_next c) h' (cx_next c') /\ cx_fits h' c' /\ match r with inl a => fits h' (cx_next c') a | inr _ => True end.

Lemma cx_next_ext h c h' n : ext h (cx_next c) h' n -> cx_fits h c -> cx_fits h' (cx_set_next c n).
Proof. intros He H. apply (vfits_ext _ _ _ _ _ He H). Qed.

Lemma cx_any_kept load h s c t r c' : load_ok load -> st_fits h (cx_next c) s -> cx_fits h c -> cx_any_parse load s c t = Ok (r, c') ->
  exists h', ext h (cx_next c) h' (cx_next c') /\ res_fits h' (cx_next c') r /\ cx_fits h' c'.
Proof.
  intros Hl Hs Hc H. unfold cx_any_parse in H.
  assert (Hn : (let! (r, n') := any_parse_common s (cx_next c) t in Ok (r, cx_set_next c n')) = Ok (r, c') ->
    exists h', ext h (cx_next c) h' (cx_next c') /\ res_fits h' (cx_next c') r /\ cx_fits h' c').
  { destruct (any_parse_common s (cx_next c) t) as [[r0 n']| |] eqn:E; cbn [obind]; [|discriminate|discriminate]. intros [= <- <-].
    destruct (common_kept _ _ _ _ _ _ Hs E) as (h' & He & Hr). exists h'. split; [exact He|]. split; [exact Hr|]. apply (cx_next_ext _ _ _ _ He Hc). }
  destruct (as_status s); try (apply Hn, H).
  destruct t; try (injection H as <- <-; exists h; split; [apply ext_refl|split; [exact I|exact Hc]]).
  destruct (load c s0) as [[c1 r0]| |] eqn:E; cbn [obind] in H; try discriminate. injection H as <- <-.
  destruct (Hl _ _ _ _ _ Hc E) as (h' & He & Hc' & Hr). exists h'. split; [exact He|]. split; [|exact Hc'].
  destruct r0 as [a|e]; [|exact I]. cbn [res_fits]. pose proof (st_ext _ _ _ _ _ He Hs) as (A & B & C). split; [exact Hr|]. split; [exact B|exact C].
Qed.

Lemma const_result_fits h n key r : res_fits h n r -> js_fits h n (const_result key r).
Proof.
  destruct r as [s|s v|e]; cbn; auto. intros ((A & B & C) & Hv). split; [exact A|]. split; [exact B|]. apply insert_fits; assumption.
Qed.

Lemma module_parse_fits h n s t j m n' : st_fits h n s -> parse_for_module s n t = Ok (j, m, n') -> exists h', ext h n h' n' /\ js_fits h' n' j.
Proof.
  intros H. unfold parse_for_module, any_parse.
  assert (Hn : (let! (rm, n') := (let! (r, n') := any_parse_common s n t in Ok (r, None (A:=list Z), n')) in
     let '(r, m) := rm in
  match m with
  | Some m => match r with RContinue s' => Ok (PModule s', Some m, n') | _ => Panic end
  | None =>
      Ok (match r with
          | RContinue s' => PModule s'
          | RSuccess s' v => PResult (as_type s') v
          | RError e => PError e
          end, None, n')
  end) = Ok (j, m, n') -> exists h', ext h n h' n' /\ js_fits h' n' j).
  { destruct (any_parse_common s n t) as [[r0 n0]| |] eqn:E; cbn [obind]; [|discriminate|discriminate]. intros [= <- <- <-].
    destruct (common_kept _ _ _ _ _ _ H E) as (h' & He & Hr). exists h'. split; [exact He|]. destruct r0; cbn in *; tauto. }
  destruct (as_status s); try exact Hn.
  destruct t; cbn [parse_import_value obind]; intros [= <- <- <-]; exists h; (split; [apply ext_refl|]); try exact I; exact H.
Qed.

Lemma root_fits h n r t j i n' : st_fits h n (rs_state r) -> root_parse r n t = Ok (j, i, n') -> exists h', ext h n h' n' /\ js_fits h' n' j.
Proof.
  intros H E.
  assert (Hn : (let! (jm, n') := parse_for_module (rs_state r) n t in Ok (fst jm, None (A:=list Z * list Z), n')) = Ok (j, i, n') -> exists h', ext h n h' n' /\ js_fits h' n' j).
  { destruct (parse_for_module (rs_state r) n t) as [[[j0 m0] n0]| |] eqn:Em; cbn [obind]; [|discriminate|discriminate]. intros [= <- <- <-].
    apply (module_parse_fits _ _ _ _ _ _ _ H Em). }
  unfold root_parse in E.
  destruct (rs_status r), t; repeat match type of E with context [if ?b then _ else _] => destruct b end; try (apply Hn, E);
    injection E as <- <- <-; exists h; (split; [apply ext_refl|]); try exact I; exact H.
Qed.

Lemma cx_root_good load h r c t j c' : load_ok load -> st_fits h (cx_next c) (rs_state r) -> cx_fits h c -> cx_root_parse load r c t = Ok (j, c') -> good h (cx_next c) j c'.
Proof.
  intros Hl Hr Hc. unfold cx_root_parse. destruct (root_parse r (cx_next c) t) as [[[j0 i] n']| |] eqn:E; cbn [obind]; [|discriminate|discriminate].
  destruct (root_fits _ _ _ _ _ _ _ Hr E) as (h1 & He & Hj). pose proof (cx_next_ext _ _ _ _ He Hc) as Hc1.
  destruct i as [[id m]|]; [|intros [= <- <-]; exists h1; auto].
  destruct j0 as [r'| | | |]; try discriminate. destruct (load _ m) as [[c2 res]| |] eqn:El; cbn [obind]; [|discriminate|discriminate]. intros [= <- <-].
  destruct (Hl _ _ _ _ _ Hc1 El) as (h2 & He2 & Hc2 & Hres). exists h2. split; [apply (ext_trans _ _ _ _ _ _ He He2)|]. split; [|exact Hc2].
  destruct res as [a|e]; [|exact I]. pose proof (st_ext _ _ _ _ _ He2 Hj) as (A & B & C). split; [exact A|]. split; [exact B|]. apply insert_fits; assumption.
Qed.

Lemma cx_push_good load h j c t j' c' : load_ok load -> js_fits h (cx_next c) j -> cx_fits h c -> cx_push load j c t = Ok (j', c') -> good h (cx_next c) j' c'.
Proof.
  intros Hl Hj Hc E.
  assert (Hsame : forall j0, js_fits h (cx_next c) j0 -> Ok (j0, c) = Ok (j', c') -> good h (cx_next c) j' c').
  { intros j0 H0 [= <- <-]. exists h. split; [apply ext_refl|]. auto. }
  assert (Hm : forall s, j = PModule s -> cx_module_parse load s c t = Ok (j', c') -> good h (cx_next c) j' c').
  { intros s -> Em. unfold cx_module_parse in Em. destruct (cx_any_parse load s c t) as [[r c1]| |] eqn:Ea; cbn [obind] in Em; try discriminate.
    injection Em as <- <-. destruct (cx_any_kept _ _ _ _ _ _ _ Hl Hj Hc Ea) as (h' & He & Hr & Hc'). exists h'. split; [exact He|]. split; [|exact Hc'].
    destruct r; cbn in *; tauto. }
  assert (Hk : forall key s, j = PConst key s -> cx_const_parse load key s c t = Ok (j', c') -> good h (cx_next c) j' c').
  { intros key s -> Em. unfold cx_const_parse in Em.
    assert (Em' : (let! (r, c') := cx_any_parse load s c t in Ok (const_result key r, c')) = Ok (j', c')) by (destruct t; solve [exact Em|discriminate]).
    clear Em. destruct (cx_any_parse load s c t) as [[r c1]| |] eqn:Ea; cbn [obind] in Em'; try discriminate.
    injection Em' as <- <-. destruct (cx_any_kept _ _ _ _ _ _ _ Hl Hj Hc Ea) as (h' & He & Hr & Hc'). exists h'. split; [exact He|]. split; [|exact Hc'].
    apply const_result_fits, Hr. }
  unfold cx_push in E. destruct j as [r|key s|s|d v|e].
  1: { apply (cx_root_good load h r c t); auto. destruct t; exact E. }
  all: destruct t; solve [apply (Hsame _ Hj E)|apply (Hsame (PError UnexpectedToken) I E)|eapply Hm; [reflexivity|exact E]|eapply Hk; [reflexivity|exact E]].
Qed.

Lemma push_all_good load ts : load_ok load -> forall h j c j' c', js_fits h (cx_next c) j -> cx_fits h c -> push_all load j c ts = Ok (j', c') -> good h (cx_next c) j' c'.
Proof.
  intros Hl. induction ts as [|t ts IH]; intros h j c j' c' Hj Hc E; cbn [push_all] in E.
  - injection E as <- <-. exists h. split; [apply ext_refl|]. auto.
  - destruct (cx_push load j c t) as [[j1 c1]| |] eqn:Ep; cbn [obind] in E; try discriminate.
    destruct (cx_push_good _ _ _ _ _ _ _ Hl Hj Hc Ep) as (h1 & He & Hj1 & Hc1). destruct (IH h1 j1 c1 j' c' Hj1 Hc1 E) as (h2 & He2 & H2).
    exists h2. split; [apply (ext_trans _ _ _ _ _ _ He He2)|exact H2].
Qed.

Definition tokens_ok (f : context -> list token -> outcome (context * (data_type * any + parse_error))) : Prop :=
  forall h c ts c' r, cx_fits h c -> f c ts = Ok (c', r) ->
  exists h', ext h (cx_next c) h' (cx_next c') /\ cx_fits h' c' /\ match r with inl (_, a) => fits h' (cx_next c') a | inr _ => True end.

Lemma tokens_with_ok load : load_ok load -> tokens_ok (parse_tokens_with load).
Proof.
  intros Hl h c ts c' r Hc. unfold parse_tokens_with. destruct (push_all load _ c ts) as [[j c1]| |] eqn:E; cbn [obind]; [|discriminate|discriminate].
  intros [= <- <-]. apply push_all_good with (h := h) in E; [|exact Hl|split; [exact I|split; constructor]|exact Hc].
  destruct E as (h' & He & Hj & Hc'). exists h'. split; [exact He|]. split; [exact Hc'|]. destruct j; exact I || exact Hj.
Qed.

Lemma import_ok io tf f : tokens_ok f -> load_ok (import_with io tf f).
Proof.
  intros Hf h c m c' r Hc. unfold import_with. destruct (bt_get (cx_complete c) _) as [a|] eqn:Eg.
  - intros [= <- <-]. exists h. split; [apply ext_refl|]. split; [exact Hc|]. apply (get_fits _ _ _ _ _ Hc Eg).
  - destruct (bs_contains _ _); [intros [= <- <-]; exists h; split; [apply ext_refl|auto]|].
    destruct (io _) as [text|]; [|intros [= <- <-]; exists h; split; [apply ext_refl|auto]].
    destruct (tokenize tf text) as [ts| |]; cbn [obind]; [|discriminate|discriminate].
    destruct (f _ ts) as [[c2 r2]| |] eqn:Ef; cbn [obind]; [|discriminate|discriminate].
    assert (Hc1 : cx_fits h (cx_reading c (path_concat (fst (path_split (cx_path c))) m))) by exact Hc.
    destruct (Hf _ _ _ _ _ Hc1 Ef) as (h' & He & Hc' & Hr). destruct r2 as [[d v]|e]; intros [= <- <-]; exists h'; (split; [exact He|]).
    + split; [|exact Hr]. apply insert_fits; assumption.
    + auto.
Qed.

Lemma parse_tokens_ok io tf depth : tokens_ok (parse_tokens io tf depth).
Proof. induction depth as [|d IH]; [intros h c ts c' r _ [=]|]. cbn [parse_tokens]. apply tokens_with_ok, import_ok, IH. Qed.

Lemma parse_coherent : forall io tf depth c c' d v, cx_complete c = [] -> parse io tf depth c = Ok (c', inl (d, v)) -> coherent v.
Proof.
  intros io tf depth c c' d v Hc. unfold parse. destruct (io _) as [text|]; [|discriminate].
  destruct (tokenize tf text) as [ts| |]; cbn [obind]; [|discriminate|discriminate]. intros E.
  assert (H0 : cx_fits (fun _ => ANull) (cx_reading c (cx_path c))) by (unfold cx_fits; cbn; rewrite Hc; constructor).
  destruct (parse_tokens_ok _ _ _ _ _ _ _ _ H0 E) as (h & _ & _ & Hf). apply (fits_coherent _ _ _ Hf).
Qed.
