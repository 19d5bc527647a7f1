(** Facts about the parser with its drops ([DropModel.v]). *)
From Coq Require Import ZArith List Bool Lia.
From Verif Require Import Outcome JsBigintModel TokenizerModel ValueModel ParserModel SerializerModel DropModel.
Import ListNotations.
Open Scope Z_scope.

Lemma kept_incl a b : kept a b = true <-> incl a b.
Proof.
  unfold kept. rewrite forallb_forall. assert (E : forall x y, block_eqb x y = true <-> x = y).
  { intros [x1 x2] [y1 y2]. unfold block_eqb. cbn [fst snd]. rewrite andb_true_iff, !Z.eqb_eq. split; [intros [-> ->]; reflexivity|intros [= -> ->]; auto]. }
  split; intros H x Hx.
  - specialize (H x Hx). apply existsb_exists in H. destruct H as (y & Hy & Exy). apply E in Exy. subst. exact Hy.
  - apply existsb_exists. exists x. split; [exact (H x Hx)|apply E; reflexivity].
Qed.
Lemma incl_nil_eq {A} (l : list A) : incl l [] -> l = [].
Proof. destruct l as [|x r]; [reflexivity|]. intros H. destruct (H x (or_introl eq_refl)). Qed.

Lemma held_array i l : held (AArray i l) = held_list l.
Proof. cbn [held]. unfold held_list. induction l as [|x r IH]; [reflexivity|]. cbn [flat_map]. rewrite <- IH. reflexivity. Qed.
Lemma held_object i l : held (AObject i l) = held_map l.
Proof. cbn [held]. unfold held_map. induction l as [|[k x] r IH]; [reflexivity|]. cbn [flat_map snd]. rewrite <- IH. reflexivity. Qed.

Lemma held_insert m k v : incl (held v) (held_map (bt_insert m k v)).
Proof.
  unfold held_map. induction m as [|[k' v'] m IH]; cbn [bt_insert].
  - cbn [flat_map snd]. rewrite app_nil_r. apply incl_refl.
  - destruct (str_cmp k k'); cbn [flat_map snd]; [apply incl_appl, incl_refl|apply incl_appl, incl_refl|apply incl_appr, IH].
Qed.

(** Predicates on what is held: nothing. *)
Lemma held_insert_nil m k v : held_map m = [] -> held v = [] -> held_map (bt_insert m k v) = [].
Proof.
  unfold held_map. induction m as [|[k' v'] m IH]; cbn [bt_insert flat_map snd]; intros Hm Hv; [rewrite Hv; reflexivity|].
  apply app_eq_nil in Hm. destruct Hm as [H1 H2]. destruct (str_cmp k k'); cbn [flat_map snd]; rewrite ?Hv, ?H1, ?H2; auto.
Qed.
Lemma held_get_nil m k v : held_map m = [] -> bt_get m k = Some v -> held v = [].
Proof.
  unfold held_map. induction m as [|[k' v'] m IH]; cbn [bt_get flat_map snd]; intros Hm H; [discriminate|].
  apply app_eq_nil in Hm. destruct Hm as [H1 H2]. destruct (str_cmp k k'); try (exact (IH H2 H)). injection H as <-. exact H1.
Qed.
Lemma held_utf16 m : held_map (map (fun kv => (utf16 (fst kv), snd kv)) m) = held_map m.
Proof. unfold held_map. induction m as [|[k v] m IH]; [reflexivity|]. cbn [map flat_map snd fst]. rewrite IH. reflexivity. Qed.

(** A token is a bigint literal. *)
Definition is_bigint (t : token) : bool := match t with TBigInt _ => true | _ => false end.
Definition is_error (j : json_state) : bool := match j with PError _ => true | _ => false end.

(** * A bigint token is kept or is an error *)
Lemma value_held s v r : push_value s v = Ok r ->
  match r with RContinue s' => incl (held v) (held_state s') | RSuccess _ v' => v' = v | RError _ => False end.
Proof.
  unfold push_value. destruct (as_current s) as [|[m k|l]|a]; intros H; try discriminate; injection H as <-; [reflexivity| |];
    unfold held_state; cbn [as_current set_current set_status held_current held_element].
  - apply incl_appl, held_insert.
  - unfold held_list. rewrite flat_map_app. cbn [flat_map]. rewrite app_nil_r. apply incl_appl, incl_appr, incl_refl.
Qed.

Lemma common_bigint s n b r n' : any_parse_common s n (TBigInt b) = Ok (r, n') ->
  (n' = n /\ parse_scalar s (TBigInt b) = Ok r) \/ (exists e, r = RError e /\ forall b', any_parse_common s n (TBigInt b') = Ok (RError e, n')).
Proof.
  unfold any_parse_common. destruct (as_status s); cbn [parse_value parse_array_begin parse_array_value parse_array_comma parse_object_begin parse_object_key parse_object_next parse_object_comma parse_import_begin parse_import_end];
    intros H; try discriminate;
    try (right; unfold pure, opure in *; cbn [obind] in H; injection H as <- <-; eexists; split; [reflexivity|reflexivity]);
    left; unfold opure in H; destruct (parse_scalar s (TBigInt b)) as [x| |]; cbn [obind] in H; try discriminate; injection H as <- <-; auto.
Qed.

Lemma any_bigint load s c b r c' : cx_any_parse load s c (TBigInt b) = Ok (r, c') ->
  (c' = cx_set_next c (cx_next c) /\ push_value s (ABigint b) = Ok r) \/ (exists e, r = RError e /\ forall load' b', cx_any_parse load' s c (TBigInt b') = Ok (RError e, c')).
Proof.
  unfold cx_any_parse.
  assert (G : (let! (r0, n') := any_parse_common s (cx_next c) (TBigInt b) in Ok (r0, cx_set_next c n')) = Ok (r, c') ->
    (c' = cx_set_next c (cx_next c) /\ push_value s (ABigint b) = Ok r) \/
    (exists e, r = RError e /\ forall b', (let! (r0, n') := any_parse_common s (cx_next c) (TBigInt b') in Ok (r0, cx_set_next c n')) = Ok (RError e, c'))).
  { intros H. destruct (any_parse_common s (cx_next c) (TBigInt b)) as [[x n]| |] eqn:E; cbn [obind] in H; try discriminate. injection H as <- <-.
    destruct (common_bigint _ _ _ _ _ E) as [[-> P]|(e & -> & P)]; [left; split; [reflexivity|exact P]|].
    right. exists e. split; [reflexivity|]. intros b'. rewrite P. reflexivity. }
  destruct (as_status s); intros H; try (destruct (G H) as [?|(e & -> & P)]; [left; assumption|right; exists e; split; [reflexivity|intros; apply P]]; fail).
  injection H as <- <-. right. eexists. split; [reflexivity|]. reflexivity.
Qed.

Lemma plain_bigint s n b jm n' : parse_for_module s n (TBigInt b) = Ok (jm, n') ->
  In (block_of b) (held_json (fst jm)) \/ exists e, fst jm = PError e /\ forall b', exists m', parse_for_module s n (TBigInt b') = Ok ((PError e, m'), n').
Proof.
  unfold parse_for_module, any_parse.
  assert (G : (let! (rm, k) := (let! (r, n'0) := any_parse_common s n (TBigInt b) in Ok (r, @None (list Z), n'0)) in
    let '(r, m) := rm in
    match m with
    | Some m0 => match r with RContinue s' => Ok (PModule s', Some m0, k) | _ => Panic end
    | None => Ok (match r with RContinue s' => PModule s' | RSuccess s' v => PResult (as_type s') v | RError e => PError e end, None, k)
    end) = Ok (jm, n') ->
    In (block_of b) (held_json (fst jm)) \/ exists e, fst jm = PError e /\ forall b', any_parse_common s n (TBigInt b') = Ok (RError e, n')).
  { destruct (any_parse_common s n (TBigInt b)) as [[r k]| |] eqn:E; cbn [obind]; try discriminate. intros [= <- <-].
    destruct (common_bigint _ _ _ _ _ E) as [[-> P]|(e & -> & P)].
    - left. cbn [parse_scalar try_to_any] in P. unfold parse_scalar in P. cbn [try_to_any] in P. pose proof (value_held _ _ _ P) as V.
      destruct r as [s'|s' v|e]; cbn [fst held_json]; [apply V; left; reflexivity|subst v; left; reflexivity|destruct V].
    - right. exists e. split; [reflexivity|exact P]. }
  destruct (as_status s); intros H;
    try (destruct (G H) as [?|(e & E & P)]; [left; assumption|right; exists e; split; [exact E|]; intros b'; exists None; rewrite P; reflexivity]; fail).
  cbn [parse_import_value] in H. injection H as <- <-. right. eexists. split; [reflexivity|]. intros b'. exists None. reflexivity.
Qed.

Lemma push_bigint load j c b j' c' : cx_push load j c (TBigInt b) = Ok (j', c') ->
  In (block_of b) (held_json j') \/ exists e, j' = PError e /\ forall load' b', cx_push load' j c (TBigInt b') = Ok (PError e, c').
Proof.
  destruct j as [r|k s|s|d v|e]; cbn [cx_push].
  - unfold cx_root_parse, root_parse. destruct (rs_status r); try (cbn [obind]; intros [= <- <-]; right; eexists; split; reflexivity).
    destruct (rs_new_line r); [|cbn [obind]; intros [= <- <-]; right; eexists; split; reflexivity].
    destruct (parse_for_module (rs_state r) (cx_next c) (TBigInt b)) as [[[j1 m1] n1]| |] eqn:E; cbn [obind fst]; try discriminate.
    intros [= <- <-]. destruct (plain_bigint _ _ _ _ _ E) as [H|(e & H & P)]; [left; exact H|]. cbn [fst] in H. subst j1.
    right. exists e. split; [reflexivity|]. intros load' b'. destruct (P b') as [m' ->]. reflexivity.
  - unfold cx_const_parse. destruct (cx_any_parse load s c (TBigInt b)) as [[r c1]| |] eqn:E; cbn [obind]; try discriminate. intros [= <- <-].
    destruct (any_bigint _ _ _ _ _ _ E) as [[-> P]|(e & -> & P)].
    + left. pose proof (value_held _ _ _ P) as V. destruct r as [s'|s' v|e]; cbn [const_result held_json root rs_state]; [apply V; left; reflexivity| |destruct V].
      subst v. unfold held_state. cbn [set_consts as_current as_stack as_consts]. apply in_or_app. right. apply in_or_app. right. apply held_insert. left. reflexivity.
    + right. exists e. split; [reflexivity|]. intros load' b'. rewrite P. reflexivity.
  - unfold cx_module_parse. destruct (cx_any_parse load s c (TBigInt b)) as [[r c1]| |] eqn:E; cbn [obind]; try discriminate. intros [= <- <-].
    destruct (any_bigint _ _ _ _ _ _ E) as [[-> P]|(e & -> & P)].
    + left. pose proof (value_held _ _ _ P) as V. destruct r as [s'|s' v|e]; cbn [held_json]; [apply V; left; reflexivity|subst v; left; reflexivity|destruct V].
    + right. exists e. split; [reflexivity|]. intros load' b'. rewrite P. reflexivity.
  - intros [= <- <-]. right. eexists. split; reflexivity.
  - intros [= <- <-]. right. exists e. split; reflexivity.
Qed.

(** * Without bigints nothing is held *)
Definition quiet_element e := held_element e = [].
Lemma state_nil s : held_state s = [] <-> held_current (as_current s) = [] /\ flat_map held_element (as_stack s) = [] /\ held_map (as_consts s) = [].
Proof.
  unfold held_state. split.
  - intros H. apply app_eq_nil in H. destruct H as [H1 H]. apply app_eq_nil in H. tauto.
  - intros (-> & -> & ->). reflexivity.
Qed.
Definition held_any_result (r : any_result) : list block :=
  match r with RContinue s => held_state s | RSuccess s v => held_state s ++ held v | RError _ => [] end.

Lemma value_nil s v r : held_state s = [] -> held v = [] -> push_value s v = Ok r -> held_any_result r = [].
Proof.
  intros Hs Hv. pose proof (proj1 (state_nil s) Hs) as (H1 & H2 & H3). unfold push_value.
  destruct (as_current s) as [|[m k|l]|a] eqn:E; intros H; try discriminate; injection H as <-; cbn [held_any_result].
  - rewrite Hv, app_nil_r. apply state_nil. cbn. rewrite E. auto.
  - apply state_nil. cbn. rewrite held_insert_nil; auto.
  - apply state_nil. cbn. unfold held_list in *. cbn in H1. unfold held_list in H1. rewrite flat_map_app, H1. cbn. rewrite Hv. auto.
Qed.
Lemma pushed_nil s : held_state s = [] -> flat_map held_element (pushed_stack s) = [].
Proof.
  intros Hs. pose proof (proj1 (state_nil s) Hs) as (H1 & H2 & H3). unfold pushed_stack. destruct (as_current s) as [|e|a]; [exact H2| |exact H2].
  cbn [flat_map]. cbn [held_current] in H1. rewrite H1. exact H2.
Qed.
Lemma popped_nil s : held_state s = [] -> held_state (popped s) = [].
Proof.
  intros Hs. pose proof (proj1 (state_nil s) Hs) as (H1 & H2 & H3). unfold popped. destruct (as_stack s) as [|e st] eqn:E; apply state_nil; cbn; rewrite ?E; auto.
  cbn [flat_map] in H2. apply app_eq_nil in H2. destruct H2. auto.
Qed.
Lemma status_nil s x : held_state (set_status s x) = held_state s. Proof. reflexivity. Qed.
Lemma type_nil s x : held_state (set_type s x) = held_state s. Proof. reflexivity. Qed.
Lemma scalar_nil s t r : is_bigint t = false -> held_state s = [] -> parse_scalar s t = Ok r -> held_any_result r = [].
Proof.
  intros Ht Hs. unfold parse_scalar. destruct (try_to_any t (as_consts s)) as [v|] eqn:E; [|intros [= <-]; reflexivity].
  apply value_nil; [exact Hs|]. pose proof (proj1 (state_nil s) Hs) as (H1 & H2 & H3).
  destruct t; cbn [try_to_any] in E; try discriminate; try (injection E as <-; reflexivity).
  unfold try_id_to_any in E. destruct (str_eqb _ id_null); [injection E as <-; reflexivity|]. destruct (str_eqb _ id_true); [injection E as <-; reflexivity|].
  destruct (str_eqb _ id_false); [injection E as <-; reflexivity|]. exact (held_get_nil _ _ _ H3 E).
Qed.
Lemma begin_array_nil s : held_state s = [] -> held_any_result (begin_array s) = [].
Proof. intros H. pose proof (pushed_nil s H). apply state_nil in H. apply state_nil. cbn. tauto. Qed.
Lemma begin_object_nil s : held_state s = [] -> held_any_result (begin_object s) = [].
Proof. intros H. pose proof (pushed_nil s H). apply state_nil in H. apply state_nil. cbn. tauto. Qed.
Lemma begin_import_nil s : held_state s = [] -> held_any_result (begin_import s) = [].
Proof. intros H. pose proof (pushed_nil s H). apply state_nil in H. apply state_nil. cbn. tauto. Qed.
Lemma end_array_nil s n r n' : held_state s = [] -> end_array s n = Ok (r, n') -> held_any_result r = [].
Proof.
  intros H. unfold end_array. destruct (as_current s) as [|[m k|l]|a] eqn:E; try discriminate. unfold opure.
  destruct (push_value _ _) as [x| |] eqn:P; cbn [obind]; try discriminate. intros [= <- <-].
  refine (value_nil _ _ _ (popped_nil s H) _ P). rewrite held_array. apply state_nil in H. rewrite E in H. exact (proj1 H).
Qed.
Lemma end_object_nil s n r n' : held_state s = [] -> end_object s n = Ok (r, n') -> held_any_result r = [].
Proof.
  intros H. unfold end_object. destruct (as_current s) as [|[m k|l]|a] eqn:E; try discriminate. unfold opure.
  destruct (push_value _ _) as [x| |] eqn:P; cbn [obind]; try discriminate. intros [= <- <-].
  refine (value_nil _ _ _ (popped_nil s H) _ P). rewrite held_object, held_utf16. apply state_nil in H. rewrite E in H. exact (proj1 H).
Qed.
Lemma end_import_nil s r : held_state s = [] -> end_import s = Ok r -> held_any_result r = [].
Proof.
  intros H. unfold end_import. destruct (as_current s) as [|e|a] eqn:E; try discriminate.
  apply value_nil; [apply popped_nil, H|]. apply state_nil in H. rewrite E in H. exact (proj1 H).
Qed.
Lemma key_nil s k : held_state s = [] -> held_any_result (push_key s k) = [].
Proof.
  intros H. apply state_nil in H. unfold push_key. destruct (as_current s) as [|[m k0|l]|a] eqn:E; try reflexivity. apply state_nil. cbn. rewrite ?E. exact H.
Qed.
Lemma common_nil s n t r n' : is_bigint t = false -> held_state s = [] -> any_parse_common s n t = Ok (r, n') -> held_any_result r = [].
Proof.
  intros Ht Hs. assert (Sc : forall x k, (let! y := parse_scalar s t in Ok (y, n)) = Ok (x, k) -> held_any_result x = []).
  { intros x k. destruct (parse_scalar s t) as [y| |] eqn:P; cbn [obind]; try discriminate. intros [= <- <-]. exact (scalar_nil _ _ _ Ht Hs P). }
  assert (Pu : forall q x k, held_any_result q = [] -> pure n q = Ok (x, k) -> held_any_result x = []) by (intros q x k E [= <- <-]; exact E).
  assert (Oq : forall q x k, held_any_result q = [] -> opure n (Ok q) = Ok (x, k) -> held_any_result x = []) by (intros q x k E [= <- <-]; exact E).
  unfold any_parse_common.
  destruct (as_status s); [destruct t|destruct t|destruct t|destruct t|destruct t|destruct t|destruct t|destruct t|destruct t|destruct t|destruct t|destruct t]; cbn [parse_value parse_array_begin parse_array_value parse_array_comma parse_object_begin parse_object_key parse_object_next parse_object_comma parse_import_begin parse_import_end];
    repeat match goal with |- context [if ?b then _ else _] => destruct b end;
    try discriminate Ht; try discriminate;
    first [ exact (Sc r n') | exact (end_array_nil s n r n' Hs) | exact (end_object_nil s n r n' Hs)
          | apply Pu; first [reflexivity | exact Hs | exact (begin_array_nil s Hs) | exact (begin_object_nil s Hs) | exact (begin_import_nil s Hs) | exact (key_nil s _ Hs)]
          | apply Oq; first [reflexivity | exact Hs | exact (begin_array_nil s Hs) | exact (begin_object_nil s Hs) | exact (begin_import_nil s Hs)]
          | unfold opure; destruct (end_import s) as [x| |] eqn:E; cbn [obind]; try discriminate; intros [= <- <-]; exact (end_import_nil s x Hs E) ].
Qed.

Definition quiet_load (load : loader) (c c' : context) : Prop :=
  forall n m r, load (cx_set_next c n) m = Ok (c', r) -> held_cache c' = [] /\ match r with inl a => held a = [] | inr _ => True end.

Lemma set_next_same c : cx_set_next c (cx_next c) = c.
Proof. destruct c; reflexivity. Qed.

Lemma any_nil load s c t r c' : is_bigint t = false -> held_state s = [] -> held_cache c = [] -> quiet_load load c c' ->
  cx_any_parse load s c t = Ok (r, c') -> held_any_result r = [] /\ held_cache c' = [].
Proof.
  intros Ht Hs Hc Hl. unfold cx_any_parse.
  assert (G : (let! (r0, n') := any_parse_common s (cx_next c) t in Ok (r0, cx_set_next c n')) = Ok (r, c') -> held_any_result r = [] /\ held_cache c' = []).
  { destruct (any_parse_common s (cx_next c) t) as [[x n]| |] eqn:E; cbn [obind]; try discriminate. intros [= <- <-].
    split; [exact (common_nil _ _ _ _ _ Ht Hs E)|exact Hc]. }
  destruct (as_status s); auto. clear G. destruct t; try (intros [= <- <-]; auto; fail).
  destruct (load c s0) as [[c1 x]| |] eqn:El; cbn [obind]; try discriminate. intros [= <- <-].
  rewrite <- (set_next_same c) in El. destruct (Hl _ _ _ El) as [Q1 Q2]. split; [|exact Q1]. destruct x as [a|e]; [|reflexivity].
  apply state_nil in Hs. apply state_nil. cbn. tauto.
Qed.

Lemma for_module_nil s n t jm n' : is_bigint t = false -> held_state s = [] -> parse_for_module s n t = Ok (jm, n') -> held_json (fst jm) = [].
Proof.
  intros Ht Hs. unfold parse_for_module, any_parse.
  assert (G : forall r, held_any_result r = [] -> held_json (match r with RContinue s' => PModule s' | RSuccess s' v => PResult (as_type s') v | RError e => PError e end) = []).
  { intros [s'|s' v|e] H; cbn in *; [exact H| |reflexivity]. apply app_eq_nil in H. exact (proj2 H). }
  assert (C : (let! (rm, k) := (let! (r, n'0) := any_parse_common s n t in Ok (r, @None (list Z), n'0)) in
    let '(r, m) := rm in
    match m with
    | Some m0 => match r with RContinue s' => Ok (PModule s', Some m0, k) | _ => Panic end
    | None => Ok (match r with RContinue s' => PModule s' | RSuccess s' v => PResult (as_type s') v | RError e => PError e end, None, k)
    end) = Ok (jm, n') -> held_json (fst jm) = []).
  { destruct (any_parse_common s n t) as [[r k]| |] eqn:E; cbn [obind]; try discriminate. intros [= <- <-]. cbn [fst]. apply G. exact (common_nil _ _ _ _ _ Ht Hs E). }
  destruct (as_status s); auto. clear C. destruct t; cbn [parse_import_value obind]; intros [= <- <-]; auto.
Qed.

Lemma root_nil r n t j im n' : is_bigint t = false -> held_state (rs_state r) = [] -> root_parse r n t = Ok (j, im, n') -> held_json j = [].
Proof.
  intros Ht Hs. unfold root_parse. cbv zeta.
  assert (V : forall k, (let! (jm, n'0) := parse_for_module (rs_state r) n t in Ok (fst jm, k, n'0)) = Ok (j, im, n') -> held_json j = []).
  { intros k. destruct (parse_for_module (rs_state r) n t) as [[jm n1]| |] eqn:E; cbn [obind]; try discriminate. intros [= <- <- <-]. exact (for_module_nil _ _ _ _ _ Ht Hs E). }
  destruct (rs_status r); [destruct t|destruct t|destruct t|destruct t|destruct t|destruct t|destruct t|destruct t|destruct t|destruct t];
    repeat match goal with |- context [if ?b then _ else _] => destruct b end; try exact (V None); try (intros [= <- <- <-]; first [reflexivity|exact Hs]).
Qed.

Lemma push_nil load j c t j' c' : is_bigint t = false -> held_json j = [] -> held_cache c = [] -> quiet_load load c c' ->
  cx_push load j c t = Ok (j', c') -> held_json j' = [] /\ held_cache c' = [].
Proof.
  intros Ht Hj Hc Hl.
  assert (R : forall r, held_state (rs_state r) = [] -> cx_root_parse load r c t = Ok (j', c') -> held_json j' = [] /\ held_cache c' = []).
  { intros r Hr. unfold cx_root_parse. destruct (root_parse r (cx_next c) t) as [[[j1 im] n1]| |] eqn:E; cbn [obind]; try discriminate.
    pose proof (root_nil _ _ _ _ _ _ Ht Hr E) as H1. destruct im as [[id m]|]; [|intros [= <- <-]; auto]. destruct j1; try discriminate.
    destruct (load (cx_set_next c n1) m) as [[c2 x]| |] eqn:El; cbn [obind]; try discriminate. intros [= <- <-].
    destruct (Hl _ _ _ El) as [Q1 Q2]. split; [|exact Q1]. destruct x as [a|e]; [|reflexivity]. cbn [held_json] in H1. apply state_nil in H1.
    cbn [held_json root rs_state]. apply state_nil. cbn. rewrite held_insert_nil; tauto. }
  assert (C : forall k s, held_state s = [] -> cx_const_parse load k s c t = Ok (j', c') -> held_json j' = [] /\ held_cache c' = []).
  { intros k s Hs H. assert (Hne : t <> TSemicolon) by (intros ->; discriminate).
    assert (E : cx_const_parse load k s c t = let! (r, c'0) := cx_any_parse load s c t in Ok (const_result k r, c'0)) by (destruct t; reflexivity || congruence).
    rewrite E in H. destruct (cx_any_parse load s c t) as [[x c1]| |] eqn:Ex; cbn [obind] in H; try discriminate. injection H as <- <-.
    destruct (any_nil _ _ _ _ _ _ Ht Hs Hc Hl Ex) as [A1 A2]. split; [|exact A2]. destruct x as [s'|s' v|e]; cbn in *; [exact A1| |reflexivity].
    apply app_eq_nil in A1. destruct A1 as [A1 Av]. apply state_nil in A1. apply state_nil. cbn. rewrite held_insert_nil; tauto. }
  assert (D : forall s, held_state s = [] -> cx_module_parse load s c t = Ok (j', c') -> held_json j' = [] /\ held_cache c' = []).
  { intros s Hs. unfold cx_module_parse. destruct (cx_any_parse load s c t) as [[x c1]| |] eqn:Ex; cbn [obind]; try discriminate. intros [= <- <-].
    destruct (any_nil _ _ _ _ _ _ Ht Hs Hc Hl Ex) as [A1 A2]. split; [|exact A2]. destruct x as [s'|s' v|e]; cbn in *; [exact A1| |reflexivity].
    apply app_eq_nil in A1. tauto. }
  unfold cx_push. destruct j as [r|k s|s|d v|e]; cbn [held_json] in Hj; destruct t; try (intros [= <- <-]; split; [first [reflexivity|exact Hj]|exact Hc]); first [exact (R _ Hj)|exact (C _ _ Hj)|exact (D _ Hj)].
Qed.

(** The loader is asked at most once; a failed import is an error. *)
Lemma any_asks load s c t r c' : cx_any_parse load s c t = Ok (r, c') ->
  (forall load', cx_any_parse load' s c t = Ok (r, c')) \/
  (exists m x, load c m = Ok (c', x) /\ (forall e, x = inr e -> r = RError e) /\ forall load', load' c m = Ok (c', x) -> cx_any_parse load' s c t = Ok (r, c')).
Proof.
  unfold cx_any_parse. intros H. destruct (as_status s); try (left; intros; exact H).
  destruct t; try (left; intros; exact H). right. destruct (load c s0) as [[c1 x]| |] eqn:El; cbn [obind] in H; try discriminate. injection H as <- <-.
  exists s0, x. split; [exact El|]. split; [intros e ->; reflexivity|]. intros load' ->. reflexivity.
Qed.

Lemma push_asks load j c t j' c' : cx_push load j c t = Ok (j', c') ->
  ((exists n, c' = cx_set_next c n) /\ forall load', cx_push load' j c t = Ok (j', c')) \/
  (exists n m x, load (cx_set_next c n) m = Ok (c', x) /\ (forall e, x = inr e -> j' = PError e) /\
     forall load', load' (cx_set_next c n) m = Ok (c', x) -> cx_push load' j c t = Ok (j', c')).
Proof.
  assert (A : forall s r, cx_any_parse load s c t = Ok (r, c') ->
    ((exists n, c' = cx_set_next c n) /\ forall load', cx_any_parse load' s c t = Ok (r, c')) \/
    (exists n m x, load (cx_set_next c n) m = Ok (c', x) /\ (forall e, x = inr e -> r = RError e) /\
       forall load', load' (cx_set_next c n) m = Ok (c', x) -> cx_any_parse load' s c t = Ok (r, c'))).
  { intros s r. unfold cx_any_parse. intros H.
    assert (G : (let! (r0, n') := any_parse_common s (cx_next c) t in Ok (r0, cx_set_next c n')) = Ok (r, c') -> exists n, c' = cx_set_next c n).
    { destruct (any_parse_common s (cx_next c) t) as [[r' n']| |]; cbn [obind]; try discriminate. intros [= _ <-]. eauto. }
    destruct (as_status s); try (left; split; [exact (G H)|intros; exact H]; fail). clear G.
    destruct t; try (left; split; [exists (cx_next c); rewrite set_next_same; congruence|intros; exact H]; fail). right.
    destruct (load c s0) as [[c1 x]| |] eqn:El; cbn [obind] in H; try discriminate. injection H as <- <-.
    exists (cx_next c), s0, x. rewrite set_next_same. split; [exact El|]. split; [intros e ->; reflexivity|]. intros load' ->. reflexivity. }
  intros H.
  assert (R : forall r, cx_root_parse load r c t = Ok (j', c') ->
    ((exists n, c' = cx_set_next c n) /\ forall load', cx_root_parse load' r c t = Ok (j', c')) \/
    (exists n m x, load (cx_set_next c n) m = Ok (c', x) /\ (forall e, x = inr e -> j' = PError e) /\
       forall load', load' (cx_set_next c n) m = Ok (c', x) -> cx_root_parse load' r c t = Ok (j', c'))).
  { intros r Hr. unfold cx_root_parse in *. destruct (root_parse r (cx_next c) t) as [[[j1 im] n1]| |]; cbn [obind] in *; try discriminate.
    destruct im as [[id m]|]; [|left; split; [exists n1; congruence|auto]]. destruct j1; try discriminate.
    destruct (load (cx_set_next c n1) m) as [[c2 x]| |] eqn:El; cbn [obind] in Hr; try discriminate. injection Hr as <- <-. right. exists n1, m, x.
    split; [exact El|]. split; [intros e ->; reflexivity|]. intros load' ->. reflexivity. }
  assert (C : forall k s, cx_const_parse load k s c t = Ok (j', c') ->
    ((exists n, c' = cx_set_next c n) /\ forall load', cx_const_parse load' k s c t = Ok (j', c')) \/
    (exists n m x, load (cx_set_next c n) m = Ok (c', x) /\ (forall e, x = inr e -> j' = PError e) /\
       forall load', load' (cx_set_next c n) m = Ok (c', x) -> cx_const_parse load' k s c t = Ok (j', c'))).
  { intros k s Hc. assert (Hne : t <> TSemicolon) by (intros ->; discriminate).
    assert (E : forall l, cx_const_parse l k s c t = let! (r, c'0) := cx_any_parse l s c t in Ok (const_result k r, c'0)) by (intros l; destruct t; reflexivity || congruence).
    rewrite E in Hc. destruct (cx_any_parse load s c t) as [[x c1]| |] eqn:Ex; cbn [obind] in Hc; try discriminate. injection Hc as <- <-.
    destruct (A _ _ Ex) as [(N & F)|(n & m & y & L & Er & F)]; [left; split; [exact N|intros l; rewrite E, F; reflexivity]|].
    right. exists n, m, y. split; [exact L|]. split; [intros e Ey; rewrite (Er e Ey); reflexivity|]. intros l Hl. rewrite E, (F l Hl). reflexivity. }
  assert (D : forall s, cx_module_parse load s c t = Ok (j', c') ->
    ((exists n, c' = cx_set_next c n) /\ forall load', cx_module_parse load' s c t = Ok (j', c')) \/
    (exists n m x, load (cx_set_next c n) m = Ok (c', x) /\ (forall e, x = inr e -> j' = PError e) /\
       forall load', load' (cx_set_next c n) m = Ok (c', x) -> cx_module_parse load' s c t = Ok (j', c'))).
  { intros s Hc. unfold cx_module_parse in *. destruct (cx_any_parse load s c t) as [[x c1]| |] eqn:Ex; cbn [obind] in Hc; try discriminate. injection Hc as <- <-.
    destruct (A _ _ Ex) as [(N & F)|(n & m & y & L & Er & F)]; [left; split; [exact N|intros l; rewrite F; reflexivity]|].
    right. exists n, m, y. split; [exact L|]. split; [intros e Ey; rewrite (Er e Ey); reflexivity|]. intros l Hl. rewrite (F l Hl). reflexivity. }
  assert (N : forall x, Ok (x, c) = Ok (j', c') -> ((exists n, c' = cx_set_next c n) /\ forall _ : loader, Ok (x, c) = Ok (j', c')) \/
    (exists n m y, load (cx_set_next c n) m = Ok (c', y) /\ (forall e, y = inr e -> j' = PError e) /\ forall load' : loader, load' (cx_set_next c n) m = Ok (c', y) -> Ok (x, c) = Ok (j', c'))).
  { intros x E. left. split; [exists (cx_next c); rewrite set_next_same; congruence|auto]. }
  unfold cx_push in *. destruct j as [r|k s|s|d v|e]; destruct t; auto.
Qed.

(** * Errors stay *)
Lemma d_error load outer e c ts j' c' : d_push_all load outer (PError e) c ts = Ok (j', c') -> j' = PError e.
Proof.
  induction ts as [|t ts IH] in c |- *; cbn [d_push_all]; [congruence|]. unfold d_push. destruct t; cbn [cx_push obind];
    (destruct (kept _ _); cbn [obind]; [apply IH|discriminate]).
Qed.

(** What is held stays held. *)
Lemma d_push_incl load outer j c t j' c' : d_push load outer j c t = Ok (j', c') ->
  incl (held_json j ++ held_cache c) (held_json j' ++ held_cache c' ++ outer) /\ cx_push (load (held_json j ++ outer)) j c t = Ok (j', c').
Proof.
  unfold d_push. destruct (cx_push _ j c t) as [[j1 c1]| |]; cbn [obind]; try discriminate. destruct (kept _ _) eqn:K; [|discriminate].
  intros [= <- <-]. split; [apply kept_incl; exact K|reflexivity].
Qed.
Lemma d_all_incl load outer ts : forall j c j' c', d_push_all load outer j c ts = Ok (j', c') ->
  incl (held_json j ++ held_cache c) (held_json j' ++ held_cache c' ++ outer).
Proof.
  induction ts as [|t ts IH]; intros j c j' c' H; cbn [d_push_all] in H.
  - injection H as <- <-. rewrite app_assoc. apply incl_appl, incl_refl.
  - destruct (d_push load outer j c t) as [[j1 c1]| |] eqn:E; cbn [obind] in H; try discriminate.
    destruct (d_push_incl _ _ _ _ _ _ _ E) as [E1 _]. intros x Hx. apply E1 in Hx. rewrite app_assoc in Hx. apply in_app_or in Hx.
    destruct Hx as [Hx|Hx]; [exact (IH _ _ _ _ H x Hx)|]. apply in_or_app. right. apply in_or_app. right. exact Hx.
Qed.
Lemma d_all_nil load ts j c j' c' : d_push_all load [] j c ts = Ok (j', c') -> held_json j' = [] -> held_cache c' = [] -> held_json j = [] /\ held_cache c = [].
Proof.
  intros H Hj Hc. pose proof (d_all_incl _ _ _ _ _ _ _ H) as I. rewrite Hj, Hc in I. apply incl_nil_eq, app_eq_nil in I. exact I.
Qed.

(** * Where the parser drops a bigint *)

(** The value that [key] has in the map holds no bigint. *)
Definition no_loss (m : list (list Z * any)) (key : list Z) : Prop := forall v, bt_get m key = Some v -> held v = [].
Lemma no_loss_dec m key : no_loss m key \/ exists v, bt_get m key = Some v /\ held v <> [].
Proof.
  unfold no_loss. destruct (bt_get m key) as [v|]; [|left; discriminate]. destruct (held v) eqn:E.
  - left. intros v' [= <-]. exact E.
  - right. exists v. split; [reflexivity|]. rewrite E. discriminate.
Qed.
Lemma insert_keeps m k v : no_loss m k -> incl (held_map m) (held_map (bt_insert m k v)).
Proof.
  unfold held_map, no_loss. induction m as [|[k' v'] m IH]; cbn [bt_insert bt_get flat_map snd]; intros H; [intros x []|].
  destruct (str_cmp k k') eqn:E; cbn [flat_map snd].
  - rewrite (H v' eq_refl). apply incl_appr, incl_refl.
  - apply incl_appr, incl_refl.
  - apply incl_app; [apply incl_appl, incl_refl|apply incl_appr, IH; exact H].
Qed.

(** An object under construction has its key already, with a bigint in the earlier value. *)
Definition repeats (s : any_state) : Prop :=
  exists m k v, ((as_status s = SObjectColon /\ as_current s = JStack (StObject m k)) \/ exists st, as_stack s = StObject m k :: st) /\ bt_get m k = Some v /\ held v <> [].
Lemma repeats_dec s : repeats s \/ ((forall m k, as_status s = SObjectColon -> as_current s = JStack (StObject m k) -> no_loss m k) /\ forall m k st, as_stack s = StObject m k :: st -> no_loss m k).
Proof.
  assert (A : forall m k, ((as_status s = SObjectColon /\ as_current s = JStack (StObject m k)) \/ exists st, as_stack s = StObject m k :: st) -> repeats s \/ no_loss m k).
  { intros m k H. destruct (no_loss_dec m k) as [N|(v & E1 & E2)]; [auto|left]. exists m, k, v. auto. }
  assert (B : repeats s \/ forall m k, as_status s = SObjectColon -> as_current s = JStack (StObject m k) -> no_loss m k).
  { destruct (as_status s) eqn:Es; try (right; discriminate). destruct (as_current s) as [|[m k|l]|a] eqn:E; try (right; discriminate). destruct (A m k (or_introl (conj eq_refl eq_refl))) as [R|N]; [auto|right; intros m' k' _ [= <- <-]; exact N]. }
  assert (C : repeats s \/ forall m k st, as_stack s = StObject m k :: st -> no_loss m k).
  { destruct (as_stack s) as [|[m k|l] st] eqn:E; try (right; discriminate).
    destruct (A m k) as [R|N]; [right; eauto|auto|right; intros m' k' st' [= <- <- _]; exact N]. }
  destruct B as [|B]; [auto|]. destruct C as [|C]; auto.
Qed.

(** An imported value is waiting only for the closing parenthesis; while the name of the module is
    read there is no current element; otherwise no current element means that nothing is under
    construction. *)
Definition importing (q : parsing_status) : Prop := q = SImportBegin \/ q = SImportValue.
Definition in_array (q : parsing_status) : Prop := q = SArrayBegin \/ q = SArrayValue \/ q = SArrayComma.
Definition in_object (q : parsing_status) : Prop := q = SObjectBegin \/ q = SObjectKey \/ q = SObjectColon \/ q = SObjectValue \/ q = SObjectComma.
Definition settled (s : any_state) : Prop :=
  match as_current s with
  | JAny _ => as_status s = SImportEnd
  | JNone => importing (as_status s) \/ as_stack s = []
  | JStack (StArray _) => in_array (as_status s)
  | JStack (StObject _ _) => in_object (as_status s)
  end.
Definition idle (s : any_state) : Prop := as_status s = SInitial /\ as_current s = JNone /\ as_stack s = [].
Definition settled_result (s : any_state) (r : any_result) : Prop :=
  match r with RContinue s' => settled s' /\ as_consts s' = as_consts s | RSuccess s' _ => idle s' /\ as_consts s' = as_consts s | RError _ => True end.
Definition settled_json (j : json_state) : Prop := match j with PRoot r => idle (rs_state r) | PConst _ s | PModule s => settled s | _ => True end.
Lemma not_importing q : q <> SImportBegin -> q <> SImportValue -> ~ importing q.
Proof. intros H1 H2 [H|H]; auto. Qed.
Lemma idle_settled s : idle s -> settled s.
Proof. intros (_ & E & St). unfold settled. rewrite E. auto. Qed.

Lemma value_settled s v r : (as_current s = JNone -> as_stack s = []) -> push_value s v = Ok r -> settled_result s r.
Proof.
  unfold push_value. intros N. destruct (as_current s) as [|[m k|l]|a] eqn:E; intros H; try discriminate; injection H as <-; (split; [|reflexivity]).
  - split; [reflexivity|]. split; [exact E|exact (N eq_refl)].
  - right; right; right; left; reflexivity.
  - right; left; reflexivity.
Qed.
Lemma popped_none s : as_current (popped s) = JNone -> as_stack (popped s) = [].
Proof. unfold popped. destruct (as_stack s) eqn:E; cbn; [auto|discriminate]. Qed.
Lemma popped_consts s : as_consts (popped s) = as_consts s.
Proof. unfold popped. destruct (as_stack s); reflexivity. Qed.
Lemma same_consts s s' r : as_consts s' = as_consts s -> settled_result s' r -> settled_result s r.
Proof. intros E. destruct r; cbn; rewrite ?E; auto. Qed.
Lemma common_settled s n t r n' : settled s -> any_parse_common s n t = Ok (r, n') -> settled_result s r.
Proof.
  intros Hs.
  assert (Sc : ~ importing (as_status s) -> forall x k, (let! y := parse_scalar s t in Ok (y, n)) = Ok (x, k) -> settled_result s x).
  { intros Hi x k. unfold parse_scalar. destruct (try_to_any t _); cbn [obind]; [|intros [= <- <-]; exact I].
    destruct (push_value s a) as [y| |] eqn:P; cbn [obind]; try discriminate. intros [= <- <-]. refine (value_settled _ _ _ _ P).
    intros E. unfold settled in Hs. rewrite E in Hs. tauto. }
  assert (Pu : forall q x k, settled_result s q -> pure n q = Ok (x, k) -> settled_result s x) by (intros q x k E [= <- <-]; exact E).
  assert (Oq : forall q x k, settled_result s q -> opure n (Ok q) = Ok (x, k) -> settled_result s x) by (intros q x k E [= <- <-]; exact E).
  assert (Po : forall v x, push_value (popped s) v = Ok x -> settled_result s x).
  { intros v x P. exact (same_consts s _ x (popped_consts s) (value_settled _ _ _ (popped_none s) P)). }
  assert (Ea : forall x k, end_array s n = Ok (x, k) -> settled_result s x).
  { intros x k. unfold end_array. destruct (as_current s) as [|[m k0|l]|a]; try discriminate. unfold opure. destruct (push_value _ _) as [y| |] eqn:P; cbn [obind]; try discriminate. intros [= <- <-]. exact (Po _ _ P). }
  assert (Eo : forall x k, end_object s n = Ok (x, k) -> settled_result s x).
  { intros x k. unfold end_object. destruct (as_current s) as [|[m k0|l]|a]; try discriminate. unfold opure. destruct (push_value _ _) as [y| |] eqn:P; cbn [obind]; try discriminate. intros [= <- <-]. exact (Po _ _ P). }
  assert (Ei : forall x, end_import s = Ok x -> settled_result s x).
  { intros x. unfold end_import. destruct (as_current s); try discriminate. intros P.
    exact (same_consts s _ x (popped_consts (set_status s SInitial)) (value_settled _ _ _ (popped_none _) P)). }
  assert (St : forall x, as_status s <> SImportEnd -> ~ importing (as_status s) -> (in_array (as_status s) -> in_array x) -> (in_object (as_status s) -> in_object x) -> settled_result s (RContinue (set_status s x))).
  { intros x H1 H2 H3 H4. split; [|reflexivity]. unfold settled in *. cbn. destruct (as_current s) as [|[m k|l]|a]; [tauto|exact (H4 Hs)|exact (H3 Hs)|contradiction]. }
  assert (Si : as_status s = SImportBegin -> settled_result s (RContinue (set_status s SImportValue))).
  { intros H1. split; [|reflexivity]. unfold settled, importing in *. rewrite H1 in Hs. cbn. destruct (as_current s) as [|[m k|l]|a]; [auto|unfold in_object in Hs; intuition discriminate|unfold in_array in Hs; intuition discriminate|discriminate]. }
  assert (Ke : forall k, settled_result s (push_key s k)).
  { intros k; unfold push_key; destruct (as_current s) as [|[m k0|l]|a]; try exact I. split; [|reflexivity]. right; left; reflexivity. }
  assert (Ba : settled_result s (begin_array s)) by (split; [left; reflexivity|reflexivity]).
  assert (Bo : settled_result s (begin_object s)) by (split; [left; reflexivity|reflexivity]).
  assert (Bi : settled_result s (begin_import s)) by (split; [left; left; reflexivity|reflexivity]).
  unfold any_parse_common.
  destruct (as_status s) eqn:Es; [destruct t|destruct t|destruct t|destruct t|destruct t|destruct t|destruct t|destruct t|destruct t|destruct t|destruct t|destruct t]; cbn [parse_value parse_array_begin parse_array_value parse_array_comma parse_object_begin parse_object_key parse_object_next parse_object_comma parse_import_begin parse_import_end];
    repeat match goal with |- context [if ?b then _ else _] => destruct b end; try discriminate;
    first [ exact (Ea r n') | exact (Eo r n')
          | apply Pu; first [exact I | apply Si; reflexivity | apply St; [discriminate|apply not_importing; discriminate|unfold in_array; intuition discriminate|unfold in_object; intuition discriminate] | apply Ke | exact Ba | exact Bo | exact Bi]
          | apply Oq; first [exact I | exact Ba | exact Bo | exact Bi]
          | apply Sc; apply not_importing; discriminate
          | unfold opure; destruct (end_import s) as [x| |] eqn:E; cbn [obind]; try discriminate; intros [= <- <-]; exact (Ei x eq_refl) ].
Qed.

Lemma value_keeps s v r : (forall m k, as_current s = JStack (StObject m k) -> no_loss m k) -> push_value s v = Ok r -> incl (held_state s ++ held v) (held_any_result r).
Proof.
  unfold push_value. intros N. destruct (as_current s) as [|[m k|l]|a] eqn:E; intros H; try discriminate; injection H as <-; cbn [held_any_result]; unfold held_state; cbn; rewrite E; cbn [held_current held_element app].
  - apply incl_refl.
  - intros x Hx. rewrite !in_app_iff in *. destruct Hx as [[Hx|Hx]|Hx]; [left; exact (insert_keeps m k v (N m k eq_refl) x Hx)|tauto|left; exact (held_insert m k v x Hx)].
  - unfold held_list. rewrite flat_map_app. cbn [flat_map]. rewrite app_nil_r. intros x Hx. rewrite !in_app_iff in *. tauto.
Qed.
Lemma popped_keeps s : incl (flat_map held_element (as_stack s) ++ held_map (as_consts s)) (held_state (popped s)).
Proof. unfold popped, held_state. destruct (as_stack s) as [|e st] eqn:E; cbn; rewrite ?E; cbn [flat_map app]; [apply incl_refl|rewrite app_assoc; apply incl_refl]. Qed.
Lemma popped_current s m k : as_current (popped s) = JStack (StObject m k) -> exists st, as_stack s = StObject m k :: st.
Proof. unfold popped. destruct (as_stack s) as [|e st] eqn:E; cbn; [discriminate|]. intros [= ->]. eauto. Qed.
Lemma popped_value s v r : (forall m k st, as_stack s = StObject m k :: st -> no_loss m k) -> held_current (as_current s) = held v -> push_value (popped s) v = Ok r ->
  incl (held_state s) (held_any_result r).
Proof.
  intros N E P. assert (N' : forall m k, as_current (popped s) = JStack (StObject m k) -> no_loss m k) by (intros m k H; destruct (popped_current s m k H) as [st Hst]; exact (N m k st Hst)).
  eapply incl_tran; [|exact (value_keeps _ _ _ N' P)]. unfold held_state at 1. rewrite E. intros x Hx. pose proof (popped_keeps s x) as K. rewrite !in_app_iff in *. tauto.
Qed.
Lemma pushed_keeps s : (forall a, as_current s <> JAny a) -> incl (held_state s) (flat_map held_element (pushed_stack s) ++ held_map (as_consts s)).
Proof.
  intros H. unfold held_state, pushed_stack. destruct (as_current s) as [|e|a]; [apply incl_refl| |destruct (H a eq_refl)].
  cbn [flat_map held_current]. rewrite <- app_assoc. apply incl_refl.
Qed.
Lemma common_keeps s n t r n' : settled s -> any_parse_common s n t = Ok (r, n') ->
  (exists e, r = RError e) \/ repeats s \/ incl (held_state s) (held_any_result r).
Proof.
  intros Hs. destruct (repeats_dec s) as [R|[N1 N2]]; [auto|].
  assert (Sc : (as_status s = SObjectColon \/ ~ in_object (as_status s)) -> forall x k, (let! y := parse_scalar s t in Ok (y, n)) = Ok (x, k) -> (exists e, x = RError e) \/ repeats s \/ incl (held_state s) (held_any_result x)).
  { intros Hq x k. unfold parse_scalar. destruct (try_to_any t _); cbn [obind]; [|intros [= <- <-]; eauto].
    destruct (push_value s a) as [y| |] eqn:P; cbn [obind]; try discriminate. intros [= <- <-]. right; right.
    assert (N0 : forall m k0, as_current s = JStack (StObject m k0) -> no_loss m k0) by (intros m k0 Ec; destruct Hq as [Hq|Hq]; [exact (N1 m k0 Hq Ec)|unfold settled in Hs; rewrite Ec in Hs; contradiction]).
    eapply incl_tran; [|exact (value_keeps _ _ _ N0 P)]. apply incl_appl, incl_refl. }
  assert (Pu : forall q x k, ((exists e, q = RError e) \/ incl (held_state s) (held_any_result q)) -> pure n q = Ok (x, k) -> (exists e, x = RError e) \/ repeats s \/ incl (held_state s) (held_any_result x)) by (intros q x k E [= <- <-]; tauto).
  assert (Oq : forall q x k, ((exists e, q = RError e) \/ incl (held_state s) (held_any_result q)) -> opure n (Ok q) = Ok (x, k) -> (exists e, x = RError e) \/ repeats s \/ incl (held_state s) (held_any_result x)) by (intros q x k E [= <- <-]; tauto).
  assert (Ea : forall x k, end_array s n = Ok (x, k) -> (exists e, x = RError e) \/ repeats s \/ incl (held_state s) (held_any_result x)).
  { intros x k. unfold end_array. destruct (as_current s) as [|[m k0|l]|a] eqn:Ec; try discriminate. unfold opure. destruct (push_value _ _) as [y| |] eqn:P; cbn [obind]; try discriminate.
    intros [= <- <-]. right; right. refine (popped_value _ _ _ N2 _ P). rewrite Ec, held_array. reflexivity. }
  assert (Eo : forall x k, end_object s n = Ok (x, k) -> (exists e, x = RError e) \/ repeats s \/ incl (held_state s) (held_any_result x)).
  { intros x k. unfold end_object. destruct (as_current s) as [|[m k0|l]|a] eqn:Ec; try discriminate. unfold opure. destruct (push_value _ _) as [y| |] eqn:P; cbn [obind]; try discriminate.
    intros [= <- <-]. right; right. refine (popped_value _ _ _ N2 _ P). rewrite Ec, held_object, held_utf16. reflexivity. }
  assert (Ei : forall x, end_import s = Ok x -> (exists e, x = RError e) \/ repeats s \/ incl (held_state s) (held_any_result x)).
  { intros x. unfold end_import. destruct (as_current s) as [|e|a] eqn:Ec; try discriminate. intros P. right; right.
    refine (popped_value (set_status s SInitial) _ _ _ _ P); [exact N2|]. cbn. rewrite Ec. reflexivity. }
  assert (Ke : forall k, (exists e, push_key s k = RError e) \/ incl (held_state s) (held_any_result (push_key s k))).
  { intros k. unfold push_key. destruct (as_current s) as [|[m k0|l]|a] eqn:Ec; eauto. right. cbn [held_any_result]. unfold held_state. cbn. rewrite Ec. apply incl_refl. }
  assert (Ba : as_status s <> SImportEnd -> (exists e, begin_array s = RError e) \/ incl (held_state s) (held_any_result (begin_array s))) by (intros Hx; right; apply pushed_keeps; intros a Ha; unfold settled in Hs; rewrite Ha in Hs; contradiction).
  assert (Bo : as_status s <> SImportEnd -> (exists e, begin_object s = RError e) \/ incl (held_state s) (held_any_result (begin_object s))) by (intros Hx; right; apply pushed_keeps; intros a Ha; unfold settled in Hs; rewrite Ha in Hs; contradiction).
  assert (Bi : as_status s <> SImportEnd -> (exists e, begin_import s = RError e) \/ incl (held_state s) (held_any_result (begin_import s))) by (intros Hx; right; apply pushed_keeps; intros a Ha; unfold settled in Hs; rewrite Ha in Hs; contradiction).
  unfold any_parse_common.
  destruct (as_status s) eqn:Es; [destruct t|destruct t|destruct t|destruct t|destruct t|destruct t|destruct t|destruct t|destruct t|destruct t|destruct t|destruct t]; cbn [parse_value parse_array_begin parse_array_value parse_array_comma parse_object_begin parse_object_key parse_object_next parse_object_comma parse_import_begin parse_import_end];
    repeat match goal with |- context [if ?b then _ else _] => destruct b end; try discriminate;
    first [ exact (Ea r n') | exact (Eo r n')
          | apply Pu; first [left; eexists; reflexivity | apply Ke | apply Ba; discriminate | apply Bo; discriminate | apply Bi; discriminate | right; apply incl_refl]
          | apply Oq; first [left; eexists; reflexivity | apply Ba; discriminate | apply Bo; discriminate | apply Bi; discriminate]
          | apply Sc; first [left; reflexivity | right; unfold in_object; intuition discriminate]
          | unfold opure; destruct (end_import s) as [x| |] eqn:E; cbn [obind]; try discriminate; intros [= <- <-]; exact (Ei x eq_refl) ].
Qed.

(** The steps at which the parser drops a bigint: an error; the end of the module, which drops its
    constants; a repeated key; a constant or an import with a name that is taken. *)
Definition state_of (j : json_state) : option any_state :=
  match j with PRoot r => Some (rs_state r) | PConst _ s | PModule s => Some s | _ => None end.
Definition naming (j : json_state) : option (list Z) :=
  match j with PConst k _ => Some k | PRoot r => match rs_status r with QImportIdFrom k => Some k | _ => None end | _ => None end.
Inductive drops (j j' : json_state) : Prop :=
| drop_error e : j' = PError e -> held_json j <> [] -> drops j j'
| drop_constant s k v d w : state_of j = Some s -> j' = PResult d w -> In (k, v) (as_consts s) -> held v <> [] -> drops j j'
| drop_repeated s : state_of j = Some s -> repeats s -> drops j j'
| drop_redeclared s k v : state_of j = Some s -> naming j = Some k -> bt_get (as_consts s) k = Some v -> held v <> [] -> drops j j'.
Definition fine (j j' : json_state) : Prop := drops j j' \/ incl (held_json j) (held_json j').

Lemma map_dec m : held_map m = [] \/ exists k v, In (k, v) m /\ held v <> [].
Proof.
  induction m as [|[k v] m IH]; [left; reflexivity|]. unfold held_map in *. cbn [flat_map snd]. destruct (held v) eqn:E.
  - cbn [app]. destruct IH as [H|(k' & v' & H & Hn)]; [auto|right; exists k', v'; split; [right; exact H|exact Hn]].
  - right. exists k, v. split; [left; reflexivity|]. rewrite E. discriminate.
Qed.
Lemma idle_held s : idle s -> held_state s = held_map (as_consts s).
Proof. intros (_ & E1 & E2). unfold held_state. rewrite E1, E2. reflexivity. Qed.
Lemma fine_error j e : fine j (PError e).
Proof. destruct (held_json j) eqn:E; [right; rewrite E; intros x []|left; apply drop_error with e; [reflexivity|rewrite E; discriminate]]. Qed.

Lemma any_keeps load s c t r c' : settled s -> cx_any_parse load s c t = Ok (r, c') ->
  settled_result s r /\ ((exists e, r = RError e) \/ repeats s \/ incl (held_state s) (held_any_result r)).
Proof.
  intros Hs. unfold cx_any_parse.
  assert (G : (let! (r0, n') := any_parse_common s (cx_next c) t in Ok (r0, cx_set_next c n')) = Ok (r, c') ->
    settled_result s r /\ ((exists e, r = RError e) \/ repeats s \/ incl (held_state s) (held_any_result r))).
  { destruct (any_parse_common s (cx_next c) t) as [[x n]| |] eqn:E; cbn [obind]; try discriminate. intros [= <- _].
    split; [exact (common_settled _ _ _ _ _ Hs E)|exact (common_keeps _ _ _ _ _ Hs E)]. }
  destruct (as_status s) eqn:Es; auto. clear G. destruct t; try (intros [= <- _]; split; [exact I|left; eexists; reflexivity]; fail).
  destruct (load c s0) as [[c1 [a|e]]| |] eqn:El; cbn [obind]; try discriminate; intros [= <- _]; [|split; [exact I|left; eexists; reflexivity]].
  unfold settled in Hs. rewrite Es in Hs. destruct (as_current s) as [|[m k|l]|b] eqn:Ec; [|unfold in_object in Hs; intuition discriminate|unfold in_array in Hs; intuition discriminate|discriminate].
  split; [split; [reflexivity|reflexivity]|]. right; right. cbn [held_any_result]. unfold held_state. cbn. rewrite Ec. cbn [held_current app]. apply incl_appr, incl_refl.
Qed.

(** A value of a module: it continues, or it is the result and the constants are dropped. *)
Definition module_of (r : any_result) : json_state :=
  match r with RContinue s' => PModule s' | RSuccess s' v => PResult (as_type s') v | RError e => PError e end.
Lemma module_fine j s r : state_of j = Some s -> held_json j = held_state s ->
  settled_result s r -> ((exists e, r = RError e) \/ repeats s \/ incl (held_state s) (held_any_result r)) ->
  settled_json (module_of r) /\ fine j (module_of r).
Proof.
  intros Hj Hh S K. destruct r as [s'|s' v|e]; cbn [module_of]; [| |split; [exact I|apply fine_error]].
  - split; [exact (proj1 S)|]. destruct K as [[e [=]]|[R|K]]; [left; exact (drop_repeated _ _ s Hj R)|right; rewrite Hh; exact K].
  - split; [exact I|]. destruct S as [S1 S2]. destruct K as [[e [=]]|[R|K]]; [left; exact (drop_repeated _ _ s Hj R)|].
    destruct (map_dec (as_consts s)) as [N|(k & x & Hin & Hn)].
    + right. rewrite Hh. cbn [held_any_result] in K. rewrite (idle_held _ S1), S2, N in K. exact K.
    + left. eapply drop_constant; eauto.
Qed.

Lemma root_keeps r n t j im n' : idle (rs_state r) -> root_parse r n t = Ok (j, im, n') ->
  settled_json j /\ fine (PRoot r) j /\ forall id m, im = Some (id, m) -> rs_status r = QImportIdFrom id /\ j = root QInitial (rs_state r) false.
Proof.
  intros Hs. unfold root_parse. cbv zeta.
  assert (V : (let! (jm, n'0) := parse_for_module (rs_state r) n t in Ok (fst jm, None, n'0)) = Ok (j, im, n') ->
    settled_json j /\ fine (PRoot r) j /\ forall id m, im = Some (id, m) -> rs_status r = QImportIdFrom id /\ j = root QInitial (rs_state r) false).
  { unfold parse_for_module, any_parse. rewrite (proj1 Hs). destruct (any_parse_common (rs_state r) n t) as [[x k]| |] eqn:E; cbn [obind fst]; try discriminate.
    intros [= <- <- _]. pose proof (idle_settled _ Hs) as Hs'.
    destruct (module_fine (PRoot r) (rs_state r) x eq_refl eq_refl (common_settled _ _ _ _ _ Hs' E) (common_keeps _ _ _ _ _ Hs' E)) as [F1 F2].
    split; [exact F1|]. split; [exact F2|discriminate]. }
  assert (Er : forall e, Ok (PError e, None, n) = Ok (j, im, n') -> settled_json j /\ fine (PRoot r) j /\ forall id m, im = Some (id, m) -> rs_status r = QImportIdFrom id /\ j = root QInitial (rs_state r) false).
  { intros e [= <- <- _]. split; [exact I|]. split; [apply fine_error|discriminate]. }
  assert (Go : forall q s' nl, idle s' -> held_state s' = held_state (rs_state r) -> Ok (root q s' nl, None, n) = Ok (j, im, n') -> settled_json j /\ fine (PRoot r) j /\ forall id m, im = Some (id, m) -> rs_status r = QImportIdFrom id /\ j = root QInitial (rs_state r) false).
  { intros q s' nl I1 I2 [= <- <- _]. split; [exact I1|]. split; [right; cbn [held_json root rs_state]; rewrite I2; apply incl_refl|discriminate]. }
  assert (Mo : Ok (PModule (rs_state r), None, n) = Ok (j, im, n') -> settled_json j /\ fine (PRoot r) j /\ forall id m, im = Some (id, m) -> rs_status r = QImportIdFrom id /\ j = root QInitial (rs_state r) false).
  { intros [= <- <- _]. split; [exact (idle_settled _ Hs)|]. split; [right; apply incl_refl|discriminate]. }
  destruct (rs_status r) eqn:Eq; [destruct t|destruct t|destruct t|destruct t|destruct t|destruct t|destruct t|destruct t|destruct t|destruct t];
    repeat match goal with |- context [if ?b then _ else _] => destruct b end;
    first [ exact V | apply Er | exact Mo | apply Go; [exact Hs|reflexivity] | idtac ].
  - intros [= <- <- _]. split; [exact (idle_settled _ Hs)|]. split; [right; apply incl_refl|discriminate].
  - intros [= <- <- _]. split; [exact Hs|]. split; [right; apply incl_refl|]. intros id m [= <- <-]. auto.
Qed.

Lemma push_keeps load j c t j' c' : settled_json j -> cx_push load j c t = Ok (j', c') -> settled_json j' /\ fine j j'.
Proof.
  intros Hj.
  assert (Ne : forall x, settled_json x -> fine j x -> Ok (x, c) = Ok (j', c') -> settled_json j' /\ fine j j') by (intros x H1 H2 [= <- _]; auto).
  assert (R : forall r, j = PRoot r -> cx_root_parse load r c t = Ok (j', c') -> settled_json j' /\ fine j j').
  { intros r -> . unfold cx_root_parse. destruct (root_parse r (cx_next c) t) as [[[j1 im] n1]| |] eqn:E; cbn [obind]; try discriminate.
    destruct (root_keeps _ _ _ _ _ _ Hj E) as (K1 & K2 & K3). destruct im as [[id m]|]; [|intros [= <- _]; auto].
    destruct (K3 _ _ eq_refl) as [Q ->]. cbn [root rs_state]. destruct (load _ m) as [[c2 [a|e]]| |]; cbn [obind]; try discriminate; intros [= <- _]; [|split; [exact I|apply fine_error]].
    split; [exact Hj|]. destruct (no_loss_dec (as_consts (rs_state r)) id) as [N|(v & E1 & E2)]; [right|left].
    - cbn [held_json root rs_state]. unfold held_state. cbn. intros x Hx. rewrite !in_app_iff in *. destruct Hx as [Hx|[Hx|Hx]]; [auto|auto|right; right; exact (insert_keeps _ id a N x Hx)].
    - eapply drop_redeclared with (k := id); [reflexivity| |exact E1|exact E2]. cbn [naming]. rewrite Q. reflexivity. }
  assert (C : forall k s, j = PConst k s -> cx_const_parse load k s c t = Ok (j', c') -> settled_json j' /\ fine j j').
  { intros k s -> H. assert (Hne : t <> TSemicolon) by (intros ->; discriminate).
    assert (E : cx_const_parse load k s c t = let! (r, c'0) := cx_any_parse load s c t in Ok (const_result k r, c'0)) by (destruct t; reflexivity || congruence).
    rewrite E in H. destruct (cx_any_parse load s c t) as [[x c1]| |] eqn:Ex; cbn [obind] in H; try discriminate. injection H as <- _.
    destruct (any_keeps _ _ _ _ _ _ Hj Ex) as [S K]. destruct x as [s'|s' v|e]; cbn [const_result]; [| |split; [exact I|apply fine_error]].
    - split; [exact (proj1 S)|]. destruct K as [[e [=]]|[Rp|K]]; [left; exact (drop_repeated (PConst k s) _ s eq_refl Rp)|right; exact K].
    - destruct S as [S1 S2]. split; [exact S1|]. destruct K as [[e [=]]|[Rp|K]]; [left; exact (drop_repeated (PConst k s) _ s eq_refl Rp)|].
      destruct (no_loss_dec (as_consts s) k) as [N|(w & E1 & E2)]; [right|left; eapply drop_redeclared with (k := k); [reflexivity|reflexivity|exact E1|exact E2]].
      cbn [held_json root rs_state] in *. eapply incl_tran; [exact K|]. cbn [held_any_result]. rewrite (idle_held _ S1), S2. unfold held_state. cbn. rewrite ?S2.
      intros x Hx. rewrite !in_app_iff in *. right; right. destruct Hx as [Hx|Hx]; [exact (insert_keeps _ k v N x Hx)|exact (held_insert _ k v x Hx)]. }
  assert (D : forall s, j = PModule s -> cx_module_parse load s c t = Ok (j', c') -> settled_json j' /\ fine j j').
  { intros s ->. unfold cx_module_parse. destruct (cx_any_parse load s c t) as [[x c1]| |] eqn:Ex; cbn [obind]; try discriminate. intros [= <- _].
    destruct (any_keeps _ _ _ _ _ _ Hj Ex) as [S K]. exact (module_fine (PModule s) s x eq_refl eq_refl S K). }
  unfold cx_push. destruct j as [r|k s|s|d v|e]; destruct t;
    first [exact (R _ eq_refl)|exact (C _ _ eq_refl)|exact (D _ eq_refl)|apply Ne; [exact Hj|right; apply incl_refl]|apply Ne; [exact I|apply fine_error]].
Qed.

(** The loaders keep what is in the cache. *)
Definition keeps (load : list block -> loader) : Prop := forall o c m c' x, load o c m = Ok (c', x) -> incl (held_cache c) (held_cache c' ++ o).
Lemma d_tokens_keeps load outer c ts c' r : d_tokens_with load outer c ts = Ok (c', r) -> incl (held_cache c) (held_result r ++ held_cache c' ++ outer).
Proof.
  unfold d_tokens_with. destruct (d_push_all _ _ _ c ts) as [[j c1]| |] eqn:E; cbn [obind]; try discriminate. destruct (kept _ _) eqn:K; [|discriminate].
  intros [= <- <-]. apply d_all_incl in E. apply kept_incl in K. intros x Hx. assert (Hi : In x (held_json (root QInitial any_default true) ++ held_cache c)) by (apply in_or_app; auto).
  apply E in Hi. apply in_app_or in Hi. destruct Hi as [Hi|Hi]; [apply K; exact Hi|apply in_or_app; right; exact Hi].
Qed.
Lemma d_import_keeps io tf d : keeps (fun o => d_import_with io tf (d_parse_tokens io tf d o) o).
Proof.
  intros o c m c' x. unfold d_import_with. cbv zeta. set (p := path_concat _ m).
  assert (Same : forall c1 y, cx_complete c1 = cx_complete c -> Ok (c1, y) = Ok (c', x) -> incl (held_cache c) (held_cache c' ++ o)).
  { intros c1 y Hc [= <- _]. unfold held_cache. rewrite Hc. apply incl_appl, incl_refl. }
  destruct (bt_get (cx_complete c) p); [apply Same; reflexivity|]. destruct (bs_contains _ p); [apply Same; reflexivity|].
  destruct (io p) as [text|]; [|apply Same; reflexivity]. destruct (tokenize tf text) as [ts| |]; cbn [obind]; try discriminate.
  destruct (d_parse_tokens io tf d o (cx_reading c p) ts) as [[c2 r]| |] eqn:E; cbn [obind]; try discriminate.
  assert (K : incl (held_cache c) (held_result r ++ held_cache c2 ++ o)).
  { destruct d as [|d]; [discriminate E|]. cbn [d_parse_tokens] in E. exact (d_tokens_keeps _ _ _ _ _ _ E). }
  destruct r as [[dt v]|e]; [|intros [= <- _]; exact K].
  destruct (kept _ _) eqn:K2; [|discriminate]. intros [= <- _]. apply kept_incl in K2. intros y Hy. apply K in Hy. cbn [held_result] in Hy. apply in_app_or in Hy.
  destruct Hy as [Hy|Hy]; [apply in_or_app; left; exact (held_insert _ p v y Hy)|]. apply in_app_or in Hy. destruct Hy as [Hy|Hy]; [exact (K2 y Hy)|apply in_or_app; auto].
Qed.

Lemma d_push_causes load outer j c t : keeps load -> settled_json j -> d_push load outer j c t = Panic ->
  cx_push (load (held_json j ++ outer)) j c t = Panic \/ exists j' c', cx_push (load (held_json j ++ outer)) j c t = Ok (j', c') /\ drops j j'.
Proof.
  intros L Hj. unfold d_push. destruct (cx_push _ j c t) as [[j1 c1]| |] eqn:E; cbn [obind]; auto; try discriminate. destruct (kept _ _) eqn:K; [discriminate|]. intros _. right.
  exists j1, c1. split; [reflexivity|]. destruct (push_keeps _ _ _ _ _ _ Hj E) as [_ [D|F]]; [exact D|exfalso].
  enough (kept (held_json j ++ held_cache c) (held_json j1 ++ held_cache c1 ++ outer) = true) by congruence. apply kept_incl.
  apply incl_app; [apply incl_appl; exact F|].
  destruct (push_asks _ _ _ _ _ _ E) as [((n & ->) & _)|(n & m & x & Hl & _)]; [apply incl_appr, incl_appl, incl_refl|].
  apply L in Hl. intros y Hy. apply Hl in Hy. rewrite !in_app_iff in *. destruct Hy as [Hy|[Hy|Hy]]; [auto|left; exact (F y Hy)|auto].
Qed.
Lemma d_push_settled load outer j c t j' c' : settled_json j -> d_push load outer j c t = Ok (j', c') -> settled_json j'.
Proof. intros Hj H. apply d_push_incl in H. destruct H as [_ H]. exact (proj1 (push_keeps _ _ _ _ _ _ Hj H)). Qed.

Lemma d_all_causes load outer ts : keeps load -> forall j c, settled_json j -> d_push_all load outer j c ts = Panic ->
  exists before t after j1 c1, ts = before ++ t :: after /\ d_push_all load outer j c before = Ok (j1, c1) /\
    (cx_push (load (held_json j1 ++ outer)) j1 c1 t = Panic \/ exists j2 c2, cx_push (load (held_json j1 ++ outer)) j1 c1 t = Ok (j2, c2) /\ drops j1 j2).
Proof.
  intros L. induction ts as [|t ts IH]; intros j c Hj H; cbn [d_push_all] in H; [discriminate|].
  destruct (d_push load outer j c t) as [[j1 c1]| |] eqn:E; cbn [obind] in H; try discriminate.
  - destruct (IH _ _ (d_push_settled _ _ _ _ _ _ _ Hj E) H) as (b & t' & a & j2 & c2 & -> & B & C). exists (t :: b), t', a, j2, c2.
    split; [reflexivity|]. split; [cbn [d_push_all]; rewrite E; exact B|exact C].
  - exists [], t, ts, j, c. split; [reflexivity|]. split; [reflexivity|]. exact (d_push_causes _ _ _ _ _ L Hj E).
Qed.
Lemma d_tokens_causes load outer c ts : keeps load -> d_tokens_with load outer c ts = Panic ->
  (exists j c1, d_push_all load outer (root QInitial any_default true) c ts = Ok (j, c1) /\ json_end j = inr UnexpectedEnd /\ held_json j <> []) \/
  exists before t after j1 c1, ts = before ++ t :: after /\ d_push_all load outer (root QInitial any_default true) c before = Ok (j1, c1) /\
    (cx_push (load (held_json j1 ++ outer)) j1 c1 t = Panic \/ exists j2 c2, cx_push (load (held_json j1 ++ outer)) j1 c1 t = Ok (j2, c2) /\ drops j1 j2).
Proof.
  intros L. unfold d_tokens_with. destruct (d_push_all _ _ _ c ts) as [[j c1]| |] eqn:E; cbn [obind]; try discriminate.
  - destruct (kept _ _) eqn:K; [discriminate|]. intros _. left. exists j, c1. split; [reflexivity|].
    assert (N : held_json j <> []) by (intros N; rewrite N in K; discriminate).
    split; [|exact N]. destruct j as [r|k s|s|d v|e]; try reflexivity; [|destruct N; reflexivity].
    exfalso. enough (kept (held_json (PResult d v)) (held_result (json_end (PResult d v)) ++ held_cache c1 ++ outer) = true) by congruence.
    apply kept_incl, incl_appl, incl_refl.
  - intros _. right. apply d_all_causes in E; [exact E|exact L|]. repeat split.
Qed.
