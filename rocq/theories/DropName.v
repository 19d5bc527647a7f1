(** The names of the bigint blocks ([DropModel.v]) do not change what the parser does. *)
From Coq Require Import ZArith List Bool.
From Verif Require Import Outcome JsBigintModel TokenizerModel ValueModel ParserModel DropModel.
Import ListNotations.
Open Scope Z_scope.

(** Values, states and tokens without the names. *)
Definition u_bigint (b : jsbigint) : jsbigint := {| jb_len := jb_len b; jb_items := tl (tl (jb_items b)) |}.
Fixpoint u_any (a : any) : any :=
  match a with
  | ABigint b => ABigint (u_bigint b)
  | AArray i l => AArray i (map u_any l)
  | AObject i l => AObject i (map (fun kv => (fst kv, u_any (snd kv))) l)
  | a => a
  end.
Definition u_map (m : list (list Z * any)) : list (list Z * any) := map (fun kv => (fst kv, u_any (snd kv))) m.
Definition u_element (e : stack_element) : stack_element :=
  match e with StObject m k => StObject (u_map m) k | StArray l => StArray (map u_any l) end.
Definition u_current (e : json_element) : json_element :=
  match e with JNone => JNone | JStack e => JStack (u_element e) | JAny a => JAny (u_any a) end.
Definition u_state (s : any_state) : any_state :=
  {| as_type := as_type s; as_status := as_status s; as_current := u_current (as_current s); as_stack := map u_element (as_stack s); as_consts := u_map (as_consts s) |}.
Definition u_result (r : any_result) : any_result :=
  match r with RContinue s => RContinue (u_state s) | RSuccess s v => RSuccess (u_state s) (u_any v) | RError e => RError e end.
Definition u_root (r : root_state) : root_state := {| rs_status := rs_status r; rs_state := u_state (rs_state r); rs_new_line := rs_new_line r |}.
Definition u_json (j : json_state) : json_state :=
  match j with
  | PRoot r => PRoot (u_root r)
  | PConst k s => PConst k (u_state s)
  | PModule s => PModule (u_state s)
  | PResult d v => PResult d (u_any v)
  | PError e => PError e
  end.
Definition u_cx (c : context) : context :=
  {| cx_next := cx_next c; cx_path := cx_path c; cx_complete := u_map (cx_complete c); cx_progress := cx_progress c; cx_log := cx_log c |}.
Definition u_token (t : token) : token := match t with TBigInt b => TBigInt (u_bigint b) | t => t end.
Definition u_load (x : any + parse_error) : any + parse_error := match x with inl a => inl (u_any a) | inr e => inr e end.
Definition u_end (x : data_type * any + parse_error) : data_type * any + parse_error := match x with inl (d, a) => inl (d, u_any a) | inr e => inr e end.

Lemma u_named f ts : forall i, map u_token (name_tokens f i ts) = ts.
Proof. induction ts as [|t ts IH]; intros i; [reflexivity|]. destruct t; cbn; rewrite ?IH; try reflexivity. destruct b; reflexivity. Qed.

Lemma u_insert m k v : bt_insert (u_map m) k (u_any v) = u_map (bt_insert m k v).
Proof. induction m as [|[k' v'] m IH]; [reflexivity|]. cbn. destruct (str_cmp k k'); cbn; try reflexivity. f_equal. exact IH. Qed.
Lemma u_get m k : bt_get (u_map m) k = option_map u_any (bt_get m k).
Proof. induction m as [|[k' v'] m IH]; [reflexivity|]. cbn. destruct (str_cmp k k'); auto. Qed.
Lemma u_try t m : try_to_any (u_token t) (u_map m) = option_map u_any (try_to_any t m).
Proof.
  destruct t; try reflexivity. cbn. unfold try_id_to_any. destruct (str_eqb s id_null); [reflexivity|]. destruct (str_eqb s id_true); [reflexivity|].
  destruct (str_eqb s id_false); [reflexivity|]. apply u_get.
Qed.

Arguments u_map : simpl never.
Lemma u_value s v : push_value (u_state s) (u_any v) = omap u_result (push_value s v).
Proof.
  unfold push_value. cbn. destruct (as_current s) as [|[m k|l]|a] eqn:E; cbn; try reflexivity.
  - unfold u_state. cbn. rewrite <- u_insert. reflexivity.
  - unfold u_state. cbn. rewrite map_app. reflexivity.
Qed.
Lemma u_pushed s : pushed_stack (u_state s) = map u_element (pushed_stack s).
Proof. unfold pushed_stack. cbn. destruct (as_current s); reflexivity. Qed.
Lemma u_popped s : popped (u_state s) = u_state (popped s).
Proof. unfold popped. cbn. destruct (as_stack s) eqn:E; cbn; unfold u_state; cbn; rewrite ?E; reflexivity. Qed.

Definition u_pair (p : any_result * Z) : any_result * Z := (u_result (fst p), snd p).
Lemma u_scalar s n t : opure n (parse_scalar (u_state s) (u_token t)) = omap u_pair (opure n (parse_scalar s t)).
Proof.
  unfold parse_scalar. cbn [u_state as_consts]. rewrite u_try. destruct (try_to_any t (as_consts s)) as [a|]; cbn [option_map]; [|reflexivity].
  rewrite u_value. destruct (push_value s a); reflexivity.
Qed.
Lemma u_begin_array s : begin_array (u_state s) = u_result (begin_array s).
Proof. unfold begin_array. rewrite u_pushed. reflexivity. Qed.
Lemma u_begin_object s : begin_object (u_state s) = u_result (begin_object s).
Proof. unfold begin_object. rewrite u_pushed. reflexivity. Qed.
Lemma u_begin_import s : begin_import (u_state s) = u_result (begin_import s).
Proof. unfold begin_import. rewrite u_pushed. reflexivity. Qed.
Lemma u_end_array s n : end_array (u_state s) n = omap u_pair (end_array s n).
Proof.
  unfold end_array. rewrite u_popped. cbn. destruct (as_current s) as [|[m k|l]|a]; cbn; try reflexivity.
  change (AArray n (map u_any l)) with (u_any (AArray n l)). rewrite u_value. unfold opure. destruct (push_value _ _); reflexivity.
Qed.
Lemma u_end_object s n : end_object (u_state s) n = omap u_pair (end_object s n).
Proof.
  unfold end_object. rewrite u_popped. cbn. destruct (as_current s) as [|[m k|l]|a]; cbn; try reflexivity.
  replace (map (fun kv => (utf16 (fst kv), snd kv)) (u_map m)) with (u_map (map (fun kv => (utf16 (fst kv), snd kv)) m)) by (unfold u_map; rewrite !map_map; reflexivity).
  change (AObject n (u_map ?x)) with (u_any (AObject n x)). rewrite u_value. unfold opure. destruct (push_value _ _); reflexivity.
Qed.
Lemma u_end_import s : end_import (u_state s) = omap u_result (end_import s).
Proof.
  unfold end_import. change (set_status (u_state s) SInitial) with (u_state (set_status s SInitial)). rewrite u_popped. cbn [u_state as_current].
  destruct (as_current s) as [|e|a]; cbn [u_current]; try reflexivity. apply u_value.
Qed.
Lemma u_push_key s k : push_key (u_state s) k = u_result (push_key s k).
Proof. unfold push_key. cbn. destruct (as_current s) as [|[m k'|l]|a]; reflexivity. Qed.

Lemma u_common s n t : any_parse_common (u_state s) n (u_token t) = omap u_pair (any_parse_common s n t).
Proof.
  pose proof (u_scalar s n t) as Sc. unfold any_parse_common. change (as_status (u_state s)) with (as_status s).
  destruct (as_status s); [destruct t|destruct t|destruct t|destruct t|destruct t|destruct t|destruct t|destruct t|destruct t|destruct t|destruct t|destruct t];
    cbn [u_token] in *; cbn [parse_value parse_array_begin parse_array_value parse_array_comma parse_object_begin parse_object_key parse_object_next parse_object_comma parse_import_begin parse_import_end];
    change (as_type (u_state s)) with (as_type s);
    repeat match goal with |- context [if ?b then _ else _] => destruct b end;
    first [ reflexivity | exact Sc | apply u_end_array | apply u_end_object
          | rewrite u_begin_array; reflexivity | rewrite u_begin_object; reflexivity | rewrite u_begin_import; reflexivity
          | rewrite u_push_key; reflexivity
          | rewrite u_end_import; unfold opure; destruct (end_import s); reflexivity ].
Qed.

(** One step.  With [b] the two parsers end in the same way; without, the second may only follow a
    success of the first. *)
Definition follows {A} (b : bool) (f : A -> A) (o o' : outcome A) : Prop :=
  match o with Ok x => o' = Ok (f x) | Panic => b = true -> o' = Panic | NoFuel => b = true -> o' = NoFuel end.
Lemma follows_map {A} b (f : A -> A) o o' : o' = omap f o -> follows b f o o'.
Proof. intros ->. destruct o; cbn; auto. Qed.
Lemma follows_bind {A B} b (f : A -> A) (g : B -> B) o o' (k k' : A -> outcome B) :
  follows b f o o' -> (forall x, follows b g (k x) (k' (f x))) -> follows b g (let! x := o in k x) (let! x := o' in k' x).
Proof. intros H K. destruct o; cbn in H; [rewrite H; cbn; apply K| |]; cbn; intros E; rewrite (H E); reflexivity. Qed.

Section Step.
Variable b : bool.
Variables load load' : loader.
Definition u_loaded (p : context * (any + parse_error)) := (u_cx (fst p), u_load (snd p)).
Hypothesis L : forall c m, follows b u_loaded (load c m) (load' (u_cx c) m).

Lemma u_any_parse s c t : follows b (fun p => (u_result (fst p), u_cx (snd p))) (cx_any_parse load s c t) (cx_any_parse load' (u_state s) (u_cx c) (u_token t)).
Proof.
  unfold cx_any_parse. change (as_status (u_state s)) with (as_status s).
  assert (G : follows b (fun p => (u_result (fst p), u_cx (snd p))) (let! (r, n') := any_parse_common s (cx_next c) t in Ok (r, cx_set_next c n'))
    (let! (r, n') := any_parse_common (u_state s) (cx_next (u_cx c)) (u_token t) in Ok (r, cx_set_next (u_cx c) n'))).
  { cbn [u_cx cx_next]. rewrite u_common. destruct (any_parse_common s (cx_next c) t) as [[r n]| |]; cbn; auto. }
  destruct (as_status s); try exact G. clear G. destruct t; try reflexivity. cbn [u_token].
  refine (follows_bind b u_loaded _ _ _ _ _ (L c s0) _). intros [c1 [a|e]]; reflexivity.
Qed.

Lemma u_for_module s n t : parse_for_module (u_state s) n (u_token t) = omap (fun p => (u_json (fst (fst p)), snd (fst p), snd p)) (parse_for_module s n t).
Proof.
  unfold parse_for_module, any_parse. change (as_status (u_state s)) with (as_status s).
  assert (G : (let! (rm, n') := (let! (r, n') := any_parse_common (u_state s) n (u_token t) in Ok (r, @None (list Z), n')) in
      let '(r, m) := rm in
      match m with
      | Some m => match r with RContinue s' => Ok (PModule s', Some m, n') | _ => Panic end
      | None => Ok (match r with RContinue s' => PModule s' | RSuccess s' v => PResult (as_type s') v | RError e => PError e end, None, n')
      end) = omap (fun p => (u_json (fst (fst p)), snd (fst p), snd p)) (let! (rm, n') := (let! (r, n') := any_parse_common s n t in Ok (r, @None (list Z), n')) in
      let '(r, m) := rm in
      match m with
      | Some m => match r with RContinue s' => Ok (PModule s', Some m, n') | _ => Panic end
      | None => Ok (match r with RContinue s' => PModule s' | RSuccess s' v => PResult (as_type s') v | RError e => PError e end, None, n')
      end)).
  { rewrite u_common. destruct (any_parse_common s n t) as [[[s'|s' v|e] k]| |]; reflexivity. }
  destruct (as_status s); try exact G. destruct t; reflexivity.
Qed.

Lemma u_root_parse r n t : root_parse (u_root r) n (u_token t) = omap (fun p => (u_json (fst (fst p)), snd (fst p), snd p)) (root_parse r n t).
Proof.
  pose proof (u_for_module (rs_state r) n t) as V. unfold root_parse. cbn [u_root rs_status rs_state rs_new_line]. cbv zeta. change (as_type (u_state ?s)) with (as_type s).
  assert (V' : (let! (jm, n') := parse_for_module (u_state (rs_state r)) n (u_token t) in Ok (fst jm, @None (list Z * list Z), n')) =
    omap (fun p => (u_json (fst (fst p)), snd (fst p), snd p)) (let! (jm, n') := parse_for_module (rs_state r) n t in Ok (fst jm, @None (list Z * list Z), n'))).
  { rewrite V. destruct (parse_for_module (rs_state r) n t) as [[[j1 m1] n1]| |]; reflexivity. }
  destruct (rs_status r); [destruct t|destruct t|destruct t|destruct t|destruct t|destruct t|destruct t|destruct t|destruct t|destruct t]; cbn [u_token] in *;
    repeat match goal with |- context [if ?b then _ else _] => destruct b end; first [reflexivity | exact V'].
Qed.

Definition u_step (p : json_state * context) := (u_json (fst p), u_cx (snd p)).
Lemma u_push j c t : follows b u_step (cx_push load j c t) (cx_push load' (u_json j) (u_cx c) (u_token t)).
Proof.
  assert (R : forall r, follows b u_step (cx_root_parse load r c t) (cx_root_parse load' (u_root r) (u_cx c) (u_token t))).
  { intros r. unfold cx_root_parse. cbn [u_cx cx_next]. rewrite u_root_parse. destruct (root_parse r (cx_next c) t) as [[[j1 im] n1]| |]; cbn [obind omap fst snd]; [|cbn; auto|cbn; auto].
    destruct im as [[id m]|]; [|reflexivity]. destruct j1 as [r'|k s|s|d v|e]; cbn [u_json]; try (cbn; auto; fail).
    refine (follows_bind b u_loaded _ _ _ _ _ (L (cx_set_next c n1) m) _). intros [c1 [a|e]]; [|reflexivity].
    cbn. unfold u_step, u_json, root, u_root, u_state. cbn. rewrite u_insert. reflexivity. }
  assert (C : forall k s, follows b u_step (cx_const_parse load k s c t) (cx_const_parse load' k (u_state s) (u_cx c) (u_token t))).
  { intros k s. assert (G : follows b u_step (let! (r, c') := cx_any_parse load s c t in Ok (const_result k r, c')) (let! (r, c') := cx_any_parse load' (u_state s) (u_cx c) (u_token t) in Ok (const_result k r, c'))).
    { refine (follows_bind b _ _ _ _ _ _ (u_any_parse s c t) _). intros [[s'|s' v|e] c1]; try reflexivity. cbn. unfold u_step, u_json, root, u_root, u_state. cbn. rewrite u_insert. reflexivity. }
    destruct t; try exact G. cbn. auto. }
  assert (D : forall s, follows b u_step (cx_module_parse load s c t) (cx_module_parse load' (u_state s) (u_cx c) (u_token t))).
  { intros s. refine (follows_bind b _ _ _ _ _ _ (u_any_parse s c t) _). intros [[s'|s' v|e] c1]; reflexivity. }
  unfold cx_push. destruct j as [r|k s|s|d v|e]; destruct t; cbn [u_json u_token] in *; try reflexivity; first [apply R|apply C|apply D].
Qed.
Lemma u_push_all ts : forall j c, follows b u_step (push_all load j c ts) (push_all load' (u_json j) (u_cx c) (map u_token ts)).
Proof.
  induction ts as [|t ts IH]; intros j c; cbn [push_all map]; [reflexivity|].
  refine (follows_bind b u_step _ _ _ _ _ (u_push j c t) _). intros [j1 c1]. apply IH.
Qed.
End Step.

(** * The parser with drops and the parser without *)
Lemma u_json_end j : json_end (u_json j) = u_end (json_end j).
Proof. destruct j; reflexivity. Qed.
Definition u_parsed (p : context * (data_type * any + parse_error)) := (u_cx (fst p), u_end (snd p)).

Section Drops.
Variable load : list block -> loader.
Variable load' : loader.
Hypothesis L : forall o c m, follows false u_loaded (load o c m) (load' (u_cx c) m).
Lemma d_all_follows outer ts : forall j c, follows false u_step (d_push_all load outer j c ts) (push_all load' (u_json j) (u_cx c) (map u_token ts)).
Proof.
  induction ts as [|t ts IH]; intros j c; cbn [push_all d_push_all map]; [reflexivity|].
  refine (follows_bind false u_step _ _ _ _ _ _ _); [|intros [j1 c1]; apply IH].
  pose proof (u_push false _ _ (L (held_json j ++ outer)) j c t) as P. unfold d_push. destruct (cx_push _ j c t) as [[j1 c1]| |]; cbn [obind]; try (cbn; discriminate).
  destruct (kept _ _); [exact P|cbn; discriminate].
Qed.
Lemma d_tokens_follows outer c ts : follows false u_parsed (d_tokens_with load outer c ts) (parse_tokens_with load' (u_cx c) (map u_token ts)).
Proof.
  unfold d_tokens_with, parse_tokens_with. refine (follows_bind false u_step _ _ _ _ _ (d_all_follows outer ts _ c) _). intros [j1 c1]. cbn [fst snd u_step].
  destruct (kept _ _); [|cbn; discriminate]. cbn. rewrite u_json_end. reflexivity.
Qed.
End Drops.

Lemma d_import_follows io tf sub sub' outer : (forall c ts, follows false u_parsed (sub c ts) (sub' (u_cx c) ts)) ->
  forall c m, follows false u_loaded (d_import_with io tf sub outer c m) (import_with io tf sub' (u_cx c) m).
Proof.
  intros S c m. unfold d_import_with, import_with. cbv zeta. cbn [u_cx cx_path cx_complete cx_progress]. set (p := path_concat _ m). rewrite u_get.
  destruct (bt_get (cx_complete c) p) as [a|]; cbn [option_map]; [reflexivity|]. destruct (bs_contains _ p); [reflexivity|].
  destruct (io p) as [text|]; [|reflexivity]. destruct (tokenize tf text) as [ts| |]; cbn [obind]; try (cbn; discriminate).
  refine (follows_bind false u_parsed _ _ _ _ _ (S (cx_reading c p) ts) _). intros [c2 [[d v]|e]]; cbn [fst snd u_parsed u_end]; [|reflexivity].
  destruct (kept _ _); [|cbn; discriminate]. cbn. unfold u_loaded, u_cx, cx_loaded. cbn. rewrite u_insert. reflexivity.
Qed.
Lemma d_parse_tokens_follows io tf depth : forall outer c ts, follows false u_parsed (d_parse_tokens io tf depth outer c ts) (parse_tokens io tf depth (u_cx c) ts).
Proof.
  induction depth as [|d IH]; intros outer c ts; [cbn; discriminate|]. cbn [d_parse_tokens parse_tokens].
  rewrite <- (u_named (Z.of_nat (length (cx_log c))) ts 0) at 2. apply d_tokens_follows. intros o c1 m. apply d_import_follows. intros c2 ts2. apply IH.
Qed.
Lemma d_parse_follows io tf depth c : follows false u_parsed (d_parse io tf depth c) (parse io tf depth (u_cx c)).
Proof.
  unfold d_parse, parse. cbn [u_cx cx_path]. destruct (io (cx_path c)) as [text|]; [|reflexivity]. destruct (tokenize tf text) as [ts| |]; cbn [obind]; try (cbn; discriminate).
  apply (d_parse_tokens_follows io tf depth [] (cx_reading c (cx_path c)) ts).
Qed.
