(** Texts whose bigints the parser keeps: no identifiers but null, true and false, and no string twice. *)
From Coq Require Import ZArith List Bool Lia.
From Verif Require Import Outcome JsBigintModel TokenizerModel ValueModel ParserModel SerializerModel BTreeProofs ParserProofs DropModel DropProofs.
Import ListNotations.
Open Scope Z_scope.

Definition string_of (t : token) : list (list Z) := match t with TString k => [k] | _ => [] end.
Definition strings (ts : list token) : list (list Z) := flat_map string_of ts.
(** An identifier other than [null], [true] and [false]. *)
Definition is_id (t : token) : bool :=
  match t with TId i => negb (str_eqb i id_null || str_eqb i id_true || str_eqb i id_false) | _ => false end.
Lemma plain_id i : is_id (TId i) = false -> i = id_null \/ i = id_true \/ i = id_false.
Proof. unfold is_id. intros H. apply negb_false_iff in H. apply orb_prop in H. destruct H as [H|H]; [apply orb_prop in H; destruct H as [H|H]|]; apply str_eqb_eq in H; auto. Qed.

(** The keys are among the strings read so far, and a key that waits for its value is new. *)
Definition key_ok (seen : list (list Z)) (e : stack_element) : Prop :=
  match e with StArray _ => True | StObject m k => In k seen /\ incl (map fst m) seen /\ bt_get m k = None end.
Definition current_ok (seen : list (list Z)) (s : any_state) : Prop :=
  match as_current s with
  | JStack (StObject m k) => incl (map fst m) seen /\ (as_status s = SObjectKey \/ as_status s = SObjectColon -> In k seen /\ bt_get m k = None)
  | JAny _ => False
  | _ => True
  end.
Definition tidy (seen : list (list Z)) (s : any_state) : Prop :=
  as_type s = Json /\ as_consts s = [] /\ current_ok seen s /\ Forall (key_ok seen) (as_stack s) /\ ~ importing (as_status s) /\ as_status s <> SImportEnd.
Definition tidy_result (seen : list (list Z)) (r : any_result) : Prop :=
  match r with RContinue s => tidy seen s | RSuccess s _ => as_consts s = [] | RError _ => True end.

Lemma key_grows a b e : incl a b -> key_ok a e -> key_ok b e.
Proof. intros H. destruct e; cbn; [|auto]. intros (K1 & K2 & K3). split; [apply H; exact K1|]. split; [eapply incl_tran; eassumption|exact K3]. Qed.
Lemma tidy_grows a b s : incl a b -> tidy a s -> tidy b s.
Proof.
  intros H (T0 & T1 & T2 & T3 & T4). split; [exact T0|]. split; [exact T1|]. split; [|split; [|exact T4]].
  - unfold current_ok in *. destruct (as_current s) as [|[m k|l]|x]; auto. destruct T2 as [T2 T2']. split; [eapply incl_tran; eassumption|].
    intros Hq. destruct (T2' Hq). auto.
  - eapply Forall_impl; [|exact T3]. intros e. apply key_grows. exact H.
Qed.

Lemma value_tidy seen s v r : as_type s = Json -> as_consts s = [] -> Forall (key_ok seen) (as_stack s) ->
  (forall m k, as_current s = JStack (StObject m k) -> key_ok seen (StObject m k)) -> push_value s v = Ok r -> tidy_result seen r.
Proof.
  intros C0 C F K. unfold push_value. destruct (as_current s) as [|[m k|l]|a] eqn:E; intros H; try discriminate; injection H as <-; cbn [tidy_result].
  - exact C.
  - destruct (K m k eq_refl) as (K1 & K2 & K3). split; [exact C0|]. split; [exact C|]. split; [|split; [exact F|split; [apply not_importing; discriminate|discriminate]]].
    unfold current_ok. cbn. split; [|intuition discriminate]. intros x Hx. apply bt_insert_keys in Hx. destruct Hx as [->|Hx]; auto.
  - split; [exact C0|]. split; [exact C|]. split; [exact I|]. split; [exact F|]. split; [apply not_importing; discriminate|discriminate].
Qed.
Lemma popped_tidy seen s v r : as_type s = Json -> as_consts s = [] -> Forall (key_ok seen) (as_stack s) -> push_value (popped s) v = Ok r -> tidy_result seen r.
Proof.
  intros C0 C F. apply value_tidy; [unfold popped; destruct (as_stack s); exact C0|rewrite popped_consts; exact C| |]; unfold popped; destruct (as_stack s) as [|e st] eqn:E; cbn.
  - rewrite E. constructor.
  - inversion F; assumption.
  - discriminate.
  - intros m k [= ->]. inversion F; assumption.
Qed.
Lemma pushed_tidy seen s : settled s -> tidy seen s -> (as_status s = SObjectColon \/ ~ in_object (as_status s)) -> Forall (key_ok seen) (pushed_stack s).
Proof.
  intros Hs (T0 & T1 & T2 & T3 & T4) Hq. unfold pushed_stack, current_ok, settled in *. destruct (as_current s) as [|[m k|l]|a]; auto; constructor; auto; cbn.
  destruct Hq as [Hq|Hq]; [|contradiction]. destruct T2 as [T2 T2']. destruct (T2' (or_intror Hq)). auto.
Qed.

Lemma common_tidy seen s n t r n' : is_id t = false -> (forall k, t = TString k -> ~ In k seen) -> settled s -> tidy seen s ->
  any_parse_common s n t = Ok (r, n') -> tidy_result (string_of t ++ seen) r.
Proof.
  intros Ht Hk Hs T. pose proof (incl_appr (string_of t) (incl_refl seen)) as G.
  pose proof (tidy_grows _ _ _ G T) as (T0 & T1 & T2 & T3 & T4 & T5). set (seen' := string_of t ++ seen) in *.
  assert (Sc : (as_status s = SObjectColon \/ ~ in_object (as_status s)) -> forall x k, (let! y := parse_scalar s t in Ok (y, n)) = Ok (x, k) -> tidy_result seen' x).
  { intros Hq x k. unfold parse_scalar. destruct (try_to_any t _); cbn [obind]; [|intros [= <- <-]; exact I].
    destruct (push_value s a) as [y| |] eqn:P; cbn [obind]; try discriminate. intros [= <- <-]. refine (value_tidy _ _ _ _ T0 T1 T3 _ P).
    intros m k' E. unfold current_ok, settled in *. rewrite E in *. destruct Hq as [Hq|Hq]; [|contradiction]. destruct T2 as [T2 T2']. destruct (T2' (or_intror Hq)). cbn. auto. }
  assert (Pu : forall q x k, tidy_result seen' q -> pure n q = Ok (x, k) -> tidy_result seen' x) by (intros q x k E [= <- <-]; exact E).
  assert (Oq : forall q x k, tidy_result seen' q -> opure n (Ok q) = Ok (x, k) -> tidy_result seen' x) by (intros q x k E [= <- <-]; exact E).
  assert (Ea : forall x k, end_array s n = Ok (x, k) -> tidy_result seen' x).
  { intros x k. unfold end_array. destruct (as_current s) as [|[m k0|l]|a]; try discriminate. unfold opure. destruct (push_value _ _) as [y| |] eqn:P; cbn [obind]; try discriminate. intros [= <- <-]. exact (popped_tidy _ _ _ _ T0 T1 T3 P). }
  assert (Eo : forall x k, end_object s n = Ok (x, k) -> tidy_result seen' x).
  { intros x k. unfold end_object. destruct (as_current s) as [|[m k0|l]|a]; try discriminate. unfold opure. destruct (push_value _ _) as [y| |] eqn:P; cbn [obind]; try discriminate. intros [= <- <-]. exact (popped_tidy _ _ _ _ T0 T1 T3 P). }
  assert (St : forall x, ~ importing x -> x <> SImportEnd -> (x = SObjectKey \/ x = SObjectColon -> as_status s = SObjectKey \/ as_status s = SObjectColon) -> tidy_result seen' (RContinue (set_status s x))).
  { intros x H1 H2 H3. split; [exact T0|]. split; [exact T1|]. split; [|split; [exact T3|split; [exact H1|exact H2]]]. unfold current_ok in *. cbn. destruct (as_current s) as [|[m k|l]|a]; auto.
    destruct T2 as [T2 T2']. split; [exact T2|]. intros Hq. apply T2', H3, Hq. }
  assert (Ke : forall k, t = TString k -> tidy_result seen' (push_key s k)).
  { intros k E. unfold push_key. destruct (as_current s) as [|[m k0|l]|a] eqn:Ec; try exact I. unfold current_ok in T2. rewrite Ec in T2.
    split; [exact T0|]. split; [exact T1|]. split; [|split; [exact T3|split; [apply not_importing; discriminate|discriminate]]].
    unfold current_ok. cbn. split; [exact (proj1 T2)|]. intros _. split; [unfold seen'; rewrite E; left; reflexivity|].
    apply bt_get_None. intros Hin. destruct T as (_ & _ & T & _). unfold current_ok in T. rewrite Ec in T. destruct T as [T _].
    exact (Hk k E (T k Hin)). }
  assert (Ba : (as_status s = SObjectColon \/ ~ in_object (as_status s)) -> tidy_result seen' (begin_array s)).
  { intros Hq. split; [exact T0|]. split; [exact T1|]. split; [exact I|]. split; [|split; [apply not_importing; discriminate|discriminate]]. apply pushed_tidy; auto. repeat split; auto. }
  assert (Bo : (as_status s = SObjectColon \/ ~ in_object (as_status s)) -> tidy_result seen' (begin_object s)).
  { intros Hq. split; [exact T0|]. split; [exact T1|]. split; [split; [intros x []|intros [H|H]; discriminate]|]. split; [|split; [apply not_importing; discriminate|discriminate]]. apply pushed_tidy; auto. repeat split; auto. }
  unfold any_parse_common.
  destruct (as_status s) eqn:Es; [destruct t|destruct t|destruct t|destruct t|destruct t|destruct t|destruct t|destruct t|destruct t|destruct t|destruct t|destruct t]; try (destruct (plain_id _ Ht) as [->|[->| ->]]); rewrite ?T0; cbn [parse_value parse_array_begin parse_array_value parse_array_comma parse_object_begin parse_object_key parse_object_next parse_object_comma parse_import_begin parse_import_end];
    rewrite ?T0; change (str_eqb id_null id_require) with false; change (str_eqb id_true id_require) with false; change (str_eqb id_false id_require) with false; cbn [is_djs is_cjs is_cjs_compatible andb]; try discriminate;
    first [ exact (Ea r n') | exact (Eo r n')
          | apply Pu; first [exact I | apply St; [apply not_importing; discriminate|discriminate|intuition discriminate] | apply Ke; reflexivity
               | apply Ba; first [left; reflexivity | right; unfold in_object; intuition discriminate] | apply Bo; first [left; reflexivity | right; unfold in_object; intuition discriminate]]
          | apply Oq; first [exact I | apply Ba; first [left; reflexivity | right; unfold in_object; intuition discriminate] | apply Bo; first [left; reflexivity | right; unfold in_object; intuition discriminate]]
          | apply Sc; first [left; reflexivity | right; unfold in_object; intuition discriminate]
          | destruct T4; unfold importing; auto; fail
          | destruct T5; reflexivity ].
Qed.

Definition tidy_json (seen : list (list Z)) (j : json_state) : Prop :=
  match j with
  | PRoot r => rs_status r = QInitial /\ tidy seen (rs_state r)
  | PModule s => tidy seen s
  | PConst _ _ => False
  | _ => True
  end.

Lemma no_repeat seen s : tidy seen s -> ~ repeats s.
Proof.
  intros (_ & _ & T2 & T3 & _) (m & k & v & [[H1 H2]|[st H]] & Hg & _).
  - unfold current_ok in T2. rewrite H2 in T2. destruct T2 as [_ T2]. destruct (T2 (or_intror H1)). congruence.
  - rewrite H in T3. inversion T3 as [|x y K _]. destruct K as (_ & _ & K). congruence.
Qed.
Lemma tidy_drops seen j j' : tidy_json seen j -> drops j j' -> exists e, j' = PError e.
Proof.
  intros T [e E H|s k v d w Hs E Hin H|s Hs R|s k v Hs Hn Hg H]; [eauto| | |]; exfalso.
  - destruct j; try discriminate; cbn in T, Hs; injection Hs as <-; [destruct T as [_ T]| |]; try contradiction; destruct T as (_ & T & _); rewrite T in Hin; destruct Hin.
  - destruct j; try discriminate; cbn in T, Hs; injection Hs as <-; [destruct T as [_ T]| |]; try contradiction; exact (no_repeat _ _ T R).
  - destruct j; try discriminate; cbn in T, Hn; [|contradiction]. destruct T as [T _]. rewrite T in Hn. discriminate.
Qed.

Lemma module_tidy seen r : tidy_result seen r -> tidy_json seen (module_of r).
Proof. destruct r; cbn; auto. Qed.

Lemma push_tidy seen load j c t j' c' : is_id t = false -> (forall k, t = TString k -> ~ In k seen) -> settled_json j -> tidy_json seen j ->
  cx_push load j c t = Ok (j', c') ->
  tidy_json (string_of t ++ seen) j' /\ (exists n, c' = cx_set_next c n) /\ forall load', cx_push load' j c t = Ok (j', c').
Proof.
  intros Ht Hk Hj T.
  assert (Sa : forall x, tidy_json (string_of t ++ seen) x -> Ok (x, c) = Ok (j', c') -> tidy_json (string_of t ++ seen) j' /\ (exists n, c' = cx_set_next c n) /\ forall _ : loader, Ok (x, c) = Ok (j', c')).
  { intros x H [= <- <-]. split; [exact H|]. split; [exists (cx_next c); rewrite set_next_same; reflexivity|reflexivity]. }
  assert (R : forall r, j = PRoot r -> cx_root_parse load r c t = Ok (j', c') ->
    tidy_json (string_of t ++ seen) j' /\ (exists n, c' = cx_set_next c n) /\ forall load', cx_root_parse load' r c t = Ok (j', c')).
  { intros r ->. cbn in T, Hj. destruct T as [Tq T]. unfold cx_root_parse.
    assert (V : forall j1 im n1, root_parse r (cx_next c) t = Ok (j1, im, n1) -> im = None /\ tidy_json (string_of t ++ seen) j1).
    { intros j1 im n1 E. destruct (root_keeps _ _ _ _ _ _ Hj E) as (_ & _ & K). split; [destruct im as [[id m]|]; [destruct (K _ _ eq_refl); congruence|reflexivity]|].
      revert E. unfold root_parse. rewrite Tq.
      assert (P : (let! (jm, n'0) := parse_for_module (rs_state r) (cx_next c) t in Ok (fst jm, None, n'0)) = Ok (j1, im, n1) -> tidy_json (string_of t ++ seen) j1).
      { unfold parse_for_module, any_parse. rewrite (proj1 Hj). destruct (any_parse_common (rs_state r) (cx_next c) t) as [[x k]| |] eqn:E; cbn [obind fst]; try discriminate.
        intros [= <- _ _]. exact (module_tidy _ _ (common_tidy _ _ _ _ _ _ Ht Hk (idle_settled _ Hj) T E)). }
      cbv zeta. destruct t; try (destruct (plain_id _ Ht) as [->|[->| ->]]); try (destruct (rs_new_line r); [exact P|intros [= <- _ _]; exact I]).
      intros [= <- _ _]. split; [reflexivity|exact T]. }
    destruct (root_parse r (cx_next c) t) as [[[j1 im] n1]| |]; cbn [obind]; try discriminate. destruct (V _ _ _ eq_refl) as [-> V2]. intros [= <- <-].
    split; [exact V2|]. split; [eauto|reflexivity]. }
  assert (D : forall s, j = PModule s -> cx_module_parse load s c t = Ok (j', c') ->
    tidy_json (string_of t ++ seen) j' /\ (exists n, c' = cx_set_next c n) /\ forall load', cx_module_parse load' s c t = Ok (j', c')).
  { intros s ->. cbn in T, Hj. unfold cx_module_parse.
    assert (E : forall l, cx_any_parse l s c t = let! (r, n') := any_parse_common s (cx_next c) t in Ok (r, cx_set_next c n')).
    { intros l. unfold cx_any_parse. destruct T as (_ & _ & _ & _ & T & _). destruct (as_status s); try reflexivity. destruct T. right. reflexivity. }
    rewrite E. destruct (any_parse_common s (cx_next c) t) as [[x k]| |] eqn:Ex; cbn [obind]; try discriminate. intros [= <- <-].
    split; [exact (module_tidy _ _ (common_tidy _ _ _ _ _ _ Ht Hk Hj T Ex))|]. split; [eauto|]. intros l. rewrite E. reflexivity. }
  unfold cx_push. destruct j as [r|k s|s|d v|e]; [| destruct T | | |]; destruct t;
    first [exact (R _ eq_refl)|exact (D _ eq_refl)|apply Sa; exact T|apply Sa; exact I].
Qed.

Lemma error_stays load e c ts j' c' : push_all load (PError e) c ts = Ok (j', c') -> j' = PError e.
Proof.
  revert c. induction ts as [|t ts IH]; intros c; cbn [push_all]; [intros [= <- _]; reflexivity|].
  replace (cx_push load (PError e) c t) with (Ok (PError e, c)) by (destruct t; reflexivity). cbn [obind]. apply IH.
Qed.

Lemma all_tidy load load' outer ts : forall seen j c j' c', forallb (fun t => negb (is_id t)) ts = true ->
  NoDup (strings ts) -> (forall k, In k (strings ts) -> ~ In k seen) -> settled_json j -> tidy_json seen j ->
  push_all load' j c ts = Ok (j', c') -> (forall e, j' <> PError e) -> d_push_all load outer j c ts = Ok (j', c').
Proof.
  induction ts as [|t ts IH]; intros seen j c j' c' Hi Hd Hn Hj T; cbn [push_all d_push_all]; [auto|]. intros H He.
  cbn [forallb] in Hi. apply andb_prop in Hi. destruct Hi as [Ht Hi]. apply negb_true_iff in Ht.
  destruct (cx_push load' j c t) as [[j1 c1]| |] eqn:E; cbn [obind] in H; try discriminate.
  assert (Hk : forall k, t = TString k -> ~ In k seen) by (intros k ->; apply Hn; left; reflexivity).
  destruct (push_tidy _ _ _ _ _ _ _ Ht Hk Hj T E) as (T1 & (n & Hc) & F).
  destruct (push_keeps _ _ _ _ _ _ Hj E) as [Hj1 Fi].
  assert (Kp : incl (held_json j) (held_json j1)).
  { destruct Fi as [D|Kp]; [|exact Kp]. destruct (tidy_drops _ _ _ T D) as [e ->]. destruct (He e). exact (error_stays _ _ _ _ _ _ H). }
  unfold d_push. rewrite F. cbn [obind].
  replace (kept _ _) with true by (symmetry; apply kept_incl; apply incl_app; [apply incl_appl; exact Kp|subst c1; apply incl_appr, incl_appl, incl_refl]).
  cbn [obind]. refine (IH (string_of t ++ seen) j1 c1 j' c' Hi _ _ Hj1 T1 H He); unfold strings in *; cbn [flat_map] in Hd, Hn.
  - destruct t; cbn in Hd; auto. inversion Hd; assumption.
  - intros k Hin Hs. apply in_app_or in Hs. destruct Hs as [Hs|Hs]; [|exact (Hn k (in_or_app _ _ _ (or_intror Hin)) Hs)].
    destruct t; cbn in Hs; try contradiction. destruct Hs as [<-|[]]. cbn in Hd. inversion Hd as [|x l Hx _]. exact (Hx Hin).
Qed.

Lemma named_ids f ts : forall i, forallb (fun t => negb (is_id t)) (name_tokens f i ts) = forallb (fun t => negb (is_id t)) ts.
Proof. induction ts as [|t ts IH]; intros i; [reflexivity|]. destruct t; cbn; rewrite ?IH; reflexivity. Qed.
Lemma named_strings f ts : forall i, strings (name_tokens f i ts) = strings ts.
Proof. unfold strings. induction ts as [|t ts IH]; intros i; [reflexivity|]. destruct t; cbn; rewrite ?IH; reflexivity. Qed.

(** For such texts the loader is not asked. *)
Lemma all_tidy_load load load' ts : forall seen j c j' c', forallb (fun t => negb (is_id t)) ts = true ->
  NoDup (strings ts) -> (forall k, In k (strings ts) -> ~ In k seen) -> settled_json j -> tidy_json seen j ->
  push_all load j c ts = Ok (j', c') -> push_all load' j c ts = Ok (j', c').
Proof.
  induction ts as [|t ts IH]; intros seen j c j' c' Hi Hd Hn Hj T; cbn [push_all]; [auto|]. intros H.
  cbn [forallb] in Hi. apply andb_prop in Hi. destruct Hi as [Ht Hi]. apply negb_true_iff in Ht.
  destruct (cx_push load j c t) as [[j1 c1]| |] eqn:E; cbn [obind] in H; try discriminate.
  assert (Hk : forall k, t = TString k -> ~ In k seen) by (intros k ->; apply Hn; left; reflexivity).
  destruct (push_tidy _ _ _ _ _ _ _ Ht Hk Hj T E) as (T1 & _ & F). rewrite F. cbn [obind].
  refine (IH (string_of t ++ seen) j1 c1 j' c' Hi _ _ (proj1 (push_keeps _ _ _ _ _ _ Hj E)) T1 H); unfold strings in *; cbn [flat_map] in Hd, Hn.
  - destruct t; cbn in Hd; auto. inversion Hd; assumption.
  - intros k Hin Hs. apply in_app_or in Hs. destruct Hs as [Hs|Hs]; [|exact (Hn k (in_or_app _ _ _ (or_intror Hin)) Hs)].
    destruct t; cbn in Hs; try contradiction. destruct Hs as [<-|[]]. cbn in Hd. inversion Hd as [|x l Hx _]. exact (Hx Hin).
Qed.
