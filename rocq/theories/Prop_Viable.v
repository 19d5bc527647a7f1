(** Property C86: the parser reports an error at the first token that no accepted module can
    have there (nanvm-lib/src/parser). *)
From Coq Require Import ZArith List Bool String Lia.
From Verif Require Import Outcome VTac JsBigintModel TokenizerModel TokenizerSpec ValueModel ParserModel ParserSpec
  BTreeProofs ParserProofs ParserRun ParserModules ParserMore Prop_Parser.
Import ListNotations.
Open Scope Z_scope.

(** The tokens break off inside an import: after [import], [import k], [import k from],
    [require] or [require (]. *)
Inductive asks : list token -> Prop :=
| asks_import p : asks (p ++ [TId (txt "import")])
| asks_name p k : asks (p ++ [TId (txt "import"); TId k])
| asks_from p k : asks (p ++ [TId (txt "import"); TId k; TId (txt "from")])
| asks_require p : asks (p ++ [TId (txt "require")])
| asks_open p : asks (p ++ [TId (txt "require"); TOpenPar]).

(** ** States that wait for the name of a module *)
Definition any_waits (s : any_state) (p : list token) : Prop :=
  match as_status s with
  | SImportBegin => exists q, p = q ++ [TId (txt "require")]
  | SImportValue => exists q, p = q ++ [TId (txt "require"); TOpenPar]
  | _ => True
  end.
Definition waits (j : json_state) (p : list token) : Prop :=
  match j with
  | PRoot r =>
      match rs_status r with
      | QImport => exists q, p = q ++ [TId (txt "import")]
      | QImportId k => exists q, p = q ++ [TId (txt "import"); TId k]
      | QImportIdFrom k => exists q, p = q ++ [TId (txt "import"); TId k; TId (txt "from")]
      | _ => True
      end
  | PConst _ s | PModule s => any_waits s p
  | _ => True
  end.

Definition result_waits (r : any_result) (p : list token) : Prop :=
  match r with RContinue s => any_waits s p | _ => True end.

Lemma push_value_waits s v r p : push_value s v = Ok r -> result_waits r p.
Proof. unfold push_value. destruct (as_current s) as [|[]|]; intros [= <-]; exact I. Qed.
Lemma parse_scalar_waits s t r p : parse_scalar s t = Ok r -> result_waits r p.
Proof. unfold parse_scalar. destruct (try_to_any _ _); [apply push_value_waits|intros [= <-]; exact I]. Qed.
Lemma end_array_waits s n r n' p : end_array s n = Ok (r, n') -> result_waits r p.
Proof.
  unfold end_array, opure. destruct (as_current s) as [|[]|]; try discriminate.
  destruct (push_value _ _) eqn:E; cbn; try discriminate. intros [= <- _]. eapply push_value_waits, E.
Qed.
Lemma end_object_waits s n r n' p : end_object s n = Ok (r, n') -> result_waits r p.
Proof.
  unfold end_object, opure. destruct (as_current s) as [|[]|]; try discriminate.
  destruct (push_value _ _) eqn:E; cbn; try discriminate. intros [= <- _]. eapply push_value_waits, E.
Qed.
Lemma opure_inv n o r n' : opure n o = Ok (r, n') -> o = Ok r.
Proof. unfold opure. destruct o; cbn; congruence. Qed.

Lemma common_waits s n t r n' p : any_waits s p -> any_parse_common s n t = Ok (r, n') -> result_waits r (p ++ [t]).
Proof.
  intros Hw H. unfold any_parse_common in H.
  assert (Hb : forall i, str_eqb i id_require = true -> any_waits {| as_type := Cjs; as_status := SImportBegin; as_current := JNone;
               as_stack := pushed_stack s; as_consts := as_consts s |} (p ++ [TId i])).
  { intros i Hi. apply str_eqb_eq in Hi. subst i. exists p. reflexivity. }
  destruct (as_status s) eqn:Es.
  all: try (apply opure_inv in H).
  all: unfold parse_value, parse_array_begin, parse_array_value, parse_array_comma, parse_object_begin, parse_object_key, parse_object_next,
      parse_object_comma, parse_import_begin, parse_import_end, pure, push_key in H.
  all: destruct t; try (destruct (_ && str_eqb s0 id_require) eqn:Er; [apply andb_prop in Er as [_ Er]|]).
  all: try discriminate.
  all: try (apply opure_inv in H); try (eapply parse_scalar_waits; exact H); try (eapply end_array_waits; exact H); try (eapply end_object_waits; exact H).
  all: try (injection H as <- ?); try (injection H as <-).
  all: try exact I; try (apply Hb; assumption).
  all: try (destruct (as_current s) as [|[]|]; exact I).
  all: try (destruct (is_djs _); try destruct (as_current s) as [|[]|]; exact I).
  - unfold any_waits in Hw. rewrite Es in Hw. destruct Hw as [q ->]. exists q. rewrite <- app_assoc. reflexivity.
  - unfold end_import in H. destruct (as_current s) as [|[]|]; try discriminate. eapply push_value_waits, H.
Qed.

Lemma cx_any_waits load s c t r c' p : any_waits s p -> cx_any_parse load s c t = Ok (r, c') -> result_waits r (p ++ [t]).
Proof.
  intros Hw H. unfold cx_any_parse in H.
  assert (Hc : forall x, (let! (r, n') := any_parse_common s (cx_next c) t in Ok (r, cx_set_next c n')) = Ok (r, x) -> result_waits r (p ++ [t])).
  { intros x. destruct (any_parse_common s (cx_next c) t) as [[r0 n0]| |] eqn:E; cbn; try discriminate. intros [= <- _]. exact (common_waits _ _ _ _ _ _ Hw E). }
  destruct (as_status s); try exact (Hc _ H).
  destruct t; try (injection H as <- _; exact I).
  destruct (load c s0) as [[c1 [a|e]]| |]; cbn in H; try discriminate; injection H as <- _; exact I.
Qed.

Lemma any_parse_waits s n t r m n' p : any_waits s p -> any_parse s n t = Ok (r, m, n') -> result_waits r (p ++ [t]).
Proof.
  intros Hw H. unfold any_parse in H.
  destruct (as_status s) eqn:Es;
    try (destruct (any_parse_common s n t) as [[r0 n0]| |] eqn:E; cbn in H; try discriminate; injection H as <- _ _; exact (common_waits _ _ _ _ _ _ Hw E)).
  destruct t; cbn in H; injection H as <- _ _; exact I.
Qed.

Lemma waits_step load j c t j' c' p : jwf j -> cx_push load j c t = Ok (j', c') -> waits j (filter not_newline p) ->
  waits j' (filter not_newline (p ++ [t])).
Proof.
  intros Hj H Hw. rewrite filter_app.
  assert (t = TNewLine \/ (t <> TNewLine /\ filter not_newline [t] = [t])) as [->|[Hn ->]] by (destruct t; (left; reflexivity) || (right; split; [discriminate|reflexivity])).
  - cbn [filter not_newline]. rewrite app_nil_r. destruct j as [r|k s|s|d v|e]; cbn in H; try (injection H as <- <-; exact Hw).
    unfold cx_root_parse, root_parse in H. destruct (rs_status r); cbn in H; injection H as <- <-; exact I.
  - set (q := filter not_newline p) in *. clearbody q. destruct j as [r|k s|s|d v|e].
    + assert (E : cx_push load (PRoot r) c t = cx_root_parse load r c t) by (destruct t; reflexivity).
      rewrite E in H. clear E. unfold cx_root_parse, root_parse in H.
      assert (Hidle : any_waits (rs_state r) q) by (destruct Hj as (Hs & _); unfold any_waits; rewrite Hs; exact I).
      assert (Hmod : (let! (ji, n') := (let! (jm, n') := parse_for_module (rs_state r) (cx_next c) t in Ok (fst jm, @None (list Z * list Z), n')) in
       (let '(j, import) := ji in
        match import with
        | None => Ok (j, cx_set_next c n')
        | Some (id, m) => match j with
            | PRoot r' => let! (c2, res) := load (cx_set_next c n') m in
                Ok (match res with inl a => root QInitial (set_consts (rs_state r') (bt_insert (as_consts (rs_state r')) id a)) false | inr e => PError e end, c2)
            | _ => Panic end end)) = Ok (j', c') -> waits j' (q ++ [t])).
      { unfold parse_for_module. destruct (any_parse (rs_state r) (cx_next c) t) as [[[r0 m] n']| |] eqn:E; cbn [obind]; try discriminate.
        apply (any_parse_waits _ _ _ _ _ _ _ Hidle) in E.
        destruct m; cbn [obind]; [destruct r0|]; cbn [obind fst]; intros G; try discriminate; injection G as <- <-; cbn; auto. destruct r0; try exact I. exact E. }
      destruct (rs_status r) eqn:Eq; cbn [waits] in Hw; rewrite Eq in Hw; destruct t; try congruence; cbn [obind] in H; try discriminate;
        try (injection H as <- <-; exact I).
      all: try (destruct (rs_new_line r); cbn [obind] in H; [exact (Hmod H)|injection H as <- <-; exact I]).
      * destruct (rs_new_line r); cbn [obind] in H; [|injection H as <- <-; exact I].
        destruct (str_eqb s id_const) eqn:E1; cbn [obind] in H; [injection H as <- <-; exact I|].
        destruct (str_eqb s id_export && _) eqn:E2; cbn [obind] in H; [injection H as <- <-; exact I|].
        destruct (str_eqb s id_module && _) eqn:E3; cbn [obind] in H; [injection H as <- <-; exact I|].
        destruct (str_eqb s id_import && _) eqn:E4; cbn [obind] in H; [|exact (Hmod H)].
        injection H as <- <-. apply andb_prop in E4 as [E4 _]. apply str_eqb_eq in E4. subst s. exists q. reflexivity.
      * destruct (str_eqb s id_default); cbn [obind] in H; injection H as <- <-; [|exact I]. destruct Hj as (Hs & _). cbn. unfold any_waits. rewrite Hs. exact I.
      * destruct (str_eqb s id_exports); cbn [obind] in H; injection H as <- <-; exact I.
      * injection H as <- <-. destruct Hj as (Hs & _). cbn. unfold any_waits. rewrite Hs. exact I.
      * injection H as <- <-. destruct Hj as (Hs & _). cbn. unfold any_waits. rewrite Hs. exact I.
      * injection H as <- <-. destruct Hw as [x ->]. exists x. rewrite <- app_assoc. reflexivity.
      * destruct (str_eqb s0 id_from) eqn:E1; cbn [obind] in H; injection H as <- <-; [|exact I].
        apply str_eqb_eq in E1. subst s0. destruct Hw as [x ->]. exists x. rewrite <- app_assoc. reflexivity.
      * cbn in H. destruct (load _ _) as [[c2 [a|e]]| |]; cbn [obind] in H; try discriminate; injection H as <- <-; exact I.
    + assert (E : t = TSemicolon \/ cx_push load (PConst k s) c t = let! (r, c') := cx_any_parse load s c t in Ok (const_result k r, c'))
        by (destruct t; try congruence; (left; reflexivity) || (right; reflexivity)).
      destruct E as [->|E]; [discriminate|]. rewrite E in H. destruct (cx_any_parse load s c t) as [[r c1]| |] eqn:E1; cbn in H; try discriminate.
      injection H as <- <-. apply (cx_any_waits _ _ _ _ _ _ _ Hw) in E1. destruct r; try exact I. exact E1.
    + assert (E : cx_push load (PModule s) c t = cx_module_parse load s c t) by (destruct t; congruence || reflexivity).
      rewrite E in H. unfold cx_module_parse in H. destruct (cx_any_parse load s c t) as [[r c1]| |] eqn:E1; cbn in H; try discriminate.
      injection H as <- <-. apply (cx_any_waits _ _ _ _ _ _ _ Hw) in E1. destruct r; try exact I. exact E1.
    + destruct t; try congruence; cbn in H; injection H as <- <-; exact I.
    + destruct t; try congruence; cbn in H; injection H as <- <-; exact I.
Qed.

Lemma push_jwf load j c t j' c' : jwf j -> cx_push load j c t = Ok (j', c') -> jwf j'.
Proof.
  intros Hw H. destruct (push_cases (fun _ _ => False) j c t Hw) as [(j1 & n' & Hp & Hw' & _)|[(m & K & n' & L & -> & Hp & Hk & _)|(-> & _ & Hp & _)]];
    rewrite Hp in H; [congruence| |discriminate].
  destruct (load (cx_set_next c n') m) as [[c1 [a|e]]| |]; cbn in H; try discriminate; injection H as <- <-; [apply Hk|exact I].
Qed.

Lemma waits_all load ts : forall j c j' c' p, jwf j -> waits j (filter not_newline p) -> push_all load j c ts = Ok (j', c') ->
  jwf j' /\ waits j' (filter not_newline (p ++ ts)).
Proof.
  induction ts as [|t ts IH]; intros j c j' c' p Hj Hw H; cbn [push_all] in H.
  - injection H as <- <-. rewrite app_nil_r. auto.
  - destruct (cx_push load j c t) as [[j1 c1]| |] eqn:E; cbn [obind] in H; try discriminate.
    replace (p ++ t :: ts) with ((p ++ [t]) ++ ts) by (rewrite <- app_assoc; reflexivity).
    eapply IH; [eapply push_jwf; eassumption|eapply waits_step; eassumption|exact H].
Qed.

(** ** Every other state can be completed *)
Section Complete.
Let mods : list Z -> tree -> Prop := fun _ _ => False.

Lemma null_value env p d : gval mods env p d [TId (txt "null")] d VNull.
Proof. apply gv_scalar; [constructor|]. intros H. discriminate. Qed.

Lemma after_some env fs : forall d t, exists toks d' t', after mods env fs d t toks d' t'.
Proof.
  induction fs as [|[m k|items] fs IH]; intros d t; cbn.
  - eauto 6.
  - destruct (IH d (VObject (ukeys (ins_all (bt_insert (vmap erase m) k t) [])))) as (post & d' & t' & H).
    exists (TObjectEnd :: post), d', t', [], post, [], d. split; [reflexivity|]. split; [left; auto|exact H].
  - destruct (IH d (VArray (map erase items ++ t :: []))) as (post & d' & t' & H).
    exists (TArrayEnd :: post), d', t', [], post, [], d. split; [reflexivity|]. split; [left; auto|exact H].
Qed.
Lemma vthen_some env p fs d : exists toks d' t', vthen mods env p fs d toks d' t'.
Proof.
  destruct (after_some env fs d VNull) as (post & d' & t' & H).
  exists ([TId (txt "null")] ++ post), d', t', [TId (txt "null")], post, VNull, d. split; [reflexivity|]. split; [apply null_value|exact H].
Qed.

Definition any_waiting (s : any_state) : Prop := as_status s = SImportBegin \/ as_status s = SImportValue.

Lemma sres_some s : wf s -> any_waiting s \/ exists toks d' t', sres mods s toks d' t'.
Proof.
  intros Hw. unfold any_waiting, wf, sres, res in *. set (env := env_of _). clearbody env.
  assert (Ha := after_some env (as_stack s) (as_type s)).
  destruct (as_status s), (as_current s) as [|[m k|items]|a]; try contradiction; auto; right.
  - apply vthen_some.
  - destruct (Ha (VArray (map erase items ++ []))) as (post & d' & t' & H).
    exists (TArrayEnd :: post), d', t', [], post, [], (as_type s). split; [reflexivity|]. split; [constructor|exact H].
  - destruct (Ha (VArray (map erase items ++ []))) as (post & d' & t' & H).
    exists (TArrayEnd :: post), d', t', [], post, [], (as_type s). split; [reflexivity|]. split; [left; auto|exact H].
  - destruct (Ha (VArray (map erase items ++ []))) as (post & d' & t' & H).
    exists (TArrayEnd :: post), d', t', [], post, [], (as_type s). split; [reflexivity|]. split; [constructor|exact H].
  - destruct (Ha (VObject (ukeys (ins_all (vmap erase m) [])))) as (post & d' & t' & H).
    exists (TObjectEnd :: post), d', t', [], post, [], (as_type s). split; [reflexivity|]. split; [constructor|exact H].
  - destruct (vthen_some env PElsewhere (StObject m k :: as_stack s) (as_type s)) as (toks & d' & t' & H).
    exists (TColon :: toks), d', t', toks. auto.
  - apply vthen_some.
  - destruct (Ha (VObject (ukeys (ins_all (vmap erase m) [])))) as (post & d' & t' & H).
    exists (TObjectEnd :: post), d', t', [], post, [], (as_type s). split; [reflexivity|]. split; [left; auto|exact H].
  - destruct (Ha (VObject (ukeys (ins_all (vmap erase m) [])))) as (post & d' & t' & H).
    exists (TObjectEnd :: post), d', t', [], post, [], (as_type s). split; [reflexivity|]. split; [constructor|exact H].
  - destruct (Ha (erase a)) as (post & d' & t' & H). exists (TClosePar :: post), d', t', post. auto.
Qed.

Lemma spread_refl (a : list token) : spread a a.
Proof. induction a; constructor; assumption. Qed.

Lemma gmodule_some env d nl : gmodule mods env d nl [TNewLine; TId (txt "null")] d VNull.
Proof.
  apply gs_newline, gs_value; [reflexivity|discriminate|].
  exists [TId (txt "null")], [TId (txt "null")], O. split; [reflexivity|]. split; [apply spread_refl|apply null_value].
Qed.
Lemma const_some k s : wf s -> any_waiting s \/ exists toks d' t', const_lang mods k s toks d' t'.
Proof.
  intros Hw. destruct (sres_some s Hw) as [H|(a & d1 & v & H)]; [auto|right].
  exists (a ++ [TNewLine; TId (txt "null")]), d1, VNull, a, a, v, d1, [TNewLine; TId (txt "null")].
  split; [reflexivity|]. split; [apply spread_refl|]. split; [exact H|apply gmodule_some].
Qed.
Lemma module_some s : wf s -> any_waiting s \/ exists toks d' t', module_lang mods s toks d' t'.
Proof.
  intros Hw. destruct (sres_some s Hw) as [H|(a & d1 & v & H)]; [auto|right].
  exists a, d1, v, a, a, O. split; [rewrite app_nil_r; reflexivity|]. split; [apply spread_refl|exact H].
Qed.
Lemma idle_not_waiting s : idle s -> ~ any_waiting s.
Proof. intros (H & _) [E|E]; congruence. Qed.

Definition root_waiting (r : root_state) : Prop :=
  match rs_status r with QImport | QImportId _ | QImportIdFrom _ => True | _ => False end.
Definition waiting (j : json_state) : Prop :=
  match j with PRoot r => root_waiting r | PConst _ s | PModule s => any_waiting s | _ => False end.

Lemma jres_some j : jwf j -> (exists e, j = PError e) \/ waiting j \/ exists toks d' t', jres mods j toks d' t'.
Proof.
  intros Hw. destruct j as [[q s nl]|k s|s|d v|e]; cbn in Hw |- *.
  - right. unfold root_waiting, root_lang. cbn [rs_status rs_state rs_new_line].
    pose proof (idle_not_waiting s Hw) as Hn.
    destruct (module_some s (idle_wf s Hw)) as [?|(toks & d' & t' & Hm)]; [contradiction|].
    destruct q; auto; right.
    + exists [TNewLine; TId (txt "null")]. do 2 eexists. apply gmodule_some.
    + do 4 eexists. split; [reflexivity|exact Hm].
    + do 4 eexists. split; [reflexivity|exact Hm].
    + do 4 eexists. split; [reflexivity|exact Hm].
    + do 4 eexists. split; [reflexivity|exact Hm].
    + destruct (const_some (txt "x") s (idle_wf s Hw)) as [?|(toks' & d1 & t1 & Hc)]; [contradiction|].
      do 5 eexists. split; [reflexivity|exact Hc].
    + destruct (const_some s0 s (idle_wf s Hw)) as [?|(toks' & d1 & t1 & Hc)]; [contradiction|].
      do 4 eexists. split; [reflexivity|exact Hc].
  - right. apply const_some, Hw.
  - right. apply module_some, Hw.
  - right. right. exists [], d, (erase v), O. auto.
  - left. eauto.
Qed.

Lemma completed load j c toks d' t' : jwf j -> jres mods j toks d' t' ->
  exists j' c' v, push_all load j c toks = Ok (j', c') /\ json_end j' = inl (d', v).
Proof.
  intros Hw H.
  destruct (run_complete load (fun _ => True) (fun _ _ _ => I) mods toks (fun _ _ _ _ _ F => match F with end) j c d' t' H Hw I)
    as (j' & c' & v & Hp & He & _). eauto.
Qed.
End Complete.

Lemma ready load j c : jwf j -> ~ waiting j -> (exists e, j = PError e) \/
  exists ts j' c' r, push_all load j c ts = Ok (j', c') /\ json_end j' = inl r.
Proof.
  intros Hw Hn. destruct (jres_some j Hw) as [H|[H|(toks & d' & t' & H)]]; [auto|contradiction|right].
  destruct (completed load j c toks d' t' Hw H) as (j' & c' & v & Hp & He). eauto 8.
Qed.

(** With a module at hand, a waiting state leads to one that does not wait. *)
Lemma served load j c m c1 a : jwf j -> waiting j -> load c m = Ok (c1, inl a) ->
  exists ts j', push_all load j c ts = Ok (j', c1) /\ jwf j' /\ ~ waiting j' /\ forall e, j' <> PError e.
Proof.
  intros Hw Hi Hl. destruct c as [n p co pr lg].
  destruct j as [[q s nl]|k s|s|d v|e]; cbn in Hi; try contradiction.
  - assert (Hj : forall x, jwf (root QInitial (set_consts s (bt_insert (as_consts s) x a)) false)).
    { intros x. destruct Hw as (H1 & H2 & H3). repeat split; assumption. }
    destruct q; cbn in Hi; try contradiction.
    + exists [TId (txt "x"); TId (txt "from"); TString m]. eexists. repeat (cbn; unfold cx_root_parse). cbn. unfold cx_set_next. cbn. rewrite Hl. cbn.
      split; [reflexivity|]. split; [apply Hj|]. split; [intros []|discriminate].
    + exists [TId (txt "from"); TString m]. eexists. repeat (cbn; unfold cx_root_parse). cbn. unfold cx_set_next. cbn. rewrite Hl. cbn.
      split; [reflexivity|]. split; [apply Hj|]. split; [intros []|discriminate].
    + exists [TString m]. eexists. repeat (cbn; unfold cx_root_parse). cbn. unfold cx_set_next. cbn. rewrite Hl. cbn.
      split; [reflexivity|]. split; [apply Hj|]. split; [intros []|discriminate].
  - cbn in Hw. unfold wf in Hw. destruct s as [d st cur stk cs]. cbn in Hi, Hw. destruct Hi as [Hi|Hi]; cbn in Hi; subst st; destruct cur as [|[]|]; try contradiction.
    + exists [TOpenPar; TString m]. eexists. cbn. unfold cx_set_next. cbn. rewrite Hl. cbn. split; [reflexivity|]. split; [exact I|]. split; [intros [E|E]; discriminate|discriminate].
    + exists [TString m]. eexists. cbn. unfold cx_set_next. cbn. rewrite Hl. cbn. split; [reflexivity|]. split; [exact I|]. split; [intros [E|E]; discriminate|discriminate].
  - cbn in Hw. unfold wf in Hw. destruct s as [d st cur stk cs]. cbn in Hi, Hw. destruct Hi as [Hi|Hi]; cbn in Hi; subst st; destruct cur as [|[]|]; try contradiction.
    + exists [TOpenPar; TString m]. eexists. repeat (cbn; unfold cx_module_parse). cbn. unfold cx_set_next. cbn. rewrite Hl. cbn. split; [reflexivity|]. split; [exact I|]. split; [intros [E|E]; discriminate|discriminate].
    + exists [TString m]. eexists. repeat (cbn; unfold cx_module_parse). cbn. unfold cx_set_next. cbn. rewrite Hl. cbn. split; [reflexivity|]. split; [exact I|]. split; [intros [E|E]; discriminate|discriminate].
Qed.

Lemma waiting_asks j p : waiting j -> waits j p -> asks p.
Proof.
  destruct j as [[q s nl]|k s|s|d v|e]; cbn; try contradiction.
  - destruct q; cbn; try contradiction; intros _ [x ->]; constructor.
  - unfold any_waits. intros [->| ->] [x ->]; constructor.
  - unfold any_waits. intros [->| ->] [x ->]; constructor.
Qed.

(** * C86 *)

(** Whatever was read so far, either more tokens make it an accepted module, or the error is
    reported already and stays, whatever follows.  Tokens that break off inside an import are
    excepted: they need a module that can be loaded. *)
Theorem C86_viable : forall load c ts c' r, parse_tokens_with load c ts = Ok (c', r) ->
  (exists ts' c'' v, parse_tokens_with load c (ts ++ ts') = Ok (c'', inl v))
  \/ (exists e, r = inr e /\ forall ts', parse_tokens_with load c (ts ++ ts') = Ok (c', inr e))
  \/ (asks (filter not_newline ts) /\ r = inr UnexpectedEnd).
Proof.
  intros load c ts c' r H. unfold parse_tokens_with in *. fold start in *.
  destruct (push_all load start c ts) as [[j c1]| |] eqn:E; cbn [obind] in H; try discriminate. injection H as -> <-.
  destruct (waits_all load ts start c j c' [] start_jwf I E) as [Hw Hq]. cbn [app] in Hq.
  assert (waiting j \/ ~ waiting j) as [Hi|Hi].
  { destruct j as [[q s nl]|k s|s|d v|e]; cbn; unfold root_waiting, any_waiting; cbn; auto.
    - destruct q; auto.
    - destruct (as_status s); auto; right; intros [F|F]; discriminate.
    - destruct (as_status s); auto; right; intros [F|F]; discriminate. }
  - right. right. split; [exact (waiting_asks _ _ Hi Hq)|]. destruct j; try contradiction; reflexivity.
  - destruct (ready load j c' Hw Hi) as [[e ->]|(ts' & j' & c'' & v & Hp & He)].
    + right. left. exists e. split; [reflexivity|]. intros ts'. rewrite push_all_app, E. cbn [obind]. rewrite push_all_err. reflexivity.
    + left. exists ts', c'', v. rewrite push_all_app, E. cbn [obind]. rewrite Hp. cbn [obind]. rewrite He. reflexivity.
Qed.
Print Assumptions C86_viable.

(** If some module can be loaded at that point, there is no exception. *)
Theorem C86_import : forall load c ts c' r m x a, parse_tokens_with load c ts = Ok (c', r) ->
  load c' m = Ok (x, inl a) ->
  (exists ts' c'' v, parse_tokens_with load c (ts ++ ts') = Ok (c'', inl v))
  \/ (exists e, r = inr e /\ forall ts', parse_tokens_with load c (ts ++ ts') = Ok (c', inr e)).
Proof.
  intros load c ts c' r m x a H Hl. destruct (C86_viable _ _ _ _ _ H) as [G|[G|[_ G]]]; [auto|auto|].
  unfold parse_tokens_with in *. fold start in *.
  destruct (push_all load start c ts) as [[j c1]| |] eqn:E; cbn [obind] in H; try discriminate. injection H as -> <-.
  destruct (waits_all load ts start c j c' [] start_jwf I E) as [Hw _].
  assert (forall j0 c0, jwf j0 -> ~ waiting j0 -> (forall e, j0 <> PError e) ->
     exists ts' j' c'' v, push_all load j0 c0 ts' = Ok (j', c'') /\ json_end j' = inl v) as Hr.
  { intros j0 c0 H1 H2 H3. destruct (ready load j0 c0 H1 H2) as [[e ->]|(ts' & j' & c'' & v & Hp & He)]; [destruct (H3 e eq_refl)|eauto 8]. }
  assert (waiting j \/ ~ waiting j) as [Hi|Hi].
  { destruct j as [[q s nl]|k s|s|d v|e]; cbn; unfold root_waiting, any_waiting; cbn; auto.
    - destruct q; auto.
    - destruct (as_status s); auto; right; intros [F|F]; discriminate.
    - destruct (as_status s); auto; right; intros [F|F]; discriminate. }
  - destruct (served load j c' m x a Hw Hi Hl) as (t1 & j1 & Hp1 & Hw1 & Hn1 & He1).
    destruct (Hr j1 x Hw1 Hn1 He1) as (t2 & j2 & c2 & v & Hp2 & He2). left. exists (t1 ++ t2), c2, v.
    rewrite push_all_app, E. cbn [obind]. rewrite push_all_app, Hp1. cbn [obind]. rewrite Hp2. cbn [obind]. rewrite He2. reflexivity.
  - destruct (ready load j c' Hw Hi) as [[e ->]|(ts' & j' & c'' & v & Hp & He)].
    + right. exists e. split; [reflexivity|]. intros ts'. rewrite push_all_app, E. cbn [obind]. rewrite push_all_err. reflexivity.
    + left. exists ts', c'', v. rewrite push_all_app, E. cbn [obind]. rewrite Hp. cbn [obind]. rewrite He. reflexivity.
Qed.
Print Assumptions C86_import.

(** The first wrong token is reported: after it, every continuation fails the same way, and
    before it some continuation succeeds. *)
Theorem C86_first : forall load c ts t c' e,
  parse_tokens_with load c (ts ++ [t]) = Ok (c', inr e) ->
  (forall ts' c'' v, parse_tokens_with load c (ts ++ t :: ts') <> Ok (c'', inl v)) ->
  ~ asks (filter not_newline (ts ++ [t])) ->
  forall ts', parse_tokens_with load c (ts ++ t :: ts') = Ok (c', inr e).
Proof.
  intros load c ts t c' e H Hn Ha ts'. assert (Eq : forall x, ts ++ t :: x = (ts ++ [t]) ++ x) by (intros; rewrite <- app_assoc; reflexivity).
  destruct (C86_viable _ _ _ _ _ H) as [(x & c'' & v & G)|[(e' & [= <-] & G)|[G _]]].
  - rewrite <- Eq in G. destruct (Hn _ _ _ G).
  - rewrite Eq. apply G.
  - contradiction.
Qed.
Print Assumptions C86_first.

(** While the constructions are open the parser asks for more; the wrong comma is reported at
    once; so is the identifier key after a comma, which no accepted module has. *)
Example C86_case :
  seen (parse_tokens_with no_modules ctx0 [id "const"; id "a"; TEquals; TArrayBegin; TObjectBegin; TString (txt "k")]) = Ok (inr UnexpectedEnd, [])
  /\ seen (parse_tokens_with no_modules ctx0 ([id "const"; id "a"; TEquals; TArrayBegin; TObjectBegin; TString (txt "k")]
       ++ [TColon; id "null"; TObjectEnd; TArrayEnd; TNewLine; id "a"])) = Ok (inl (Djs, VArray [VObject [(txt "k", VNull)]]), [])
  /\ seen (parse_tokens_with no_modules ctx0 [id "const"; id "a"; TEquals; TArrayBegin; TComma]) = Ok (inr UnexpectedToken, [])
  /\ seen (parse_tokens_with no_modules ctx0 [id "export"; id "default"; TObjectBegin; id "a"; TColon; TNumber 0; TComma; id "b"]) = Ok (inr UnexpectedToken, [])
  /\ seen (parse_tokens_with no_modules ctx0 [id "import"; id "a"; id "from"]) = Ok (inr UnexpectedEnd, [])
  /\ asks (filter not_newline [id "import"; id "a"; id "from"]).
Proof. repeat split; try (vm_compute; reflexivity). exact (asks_from [] (txt "a")). Qed.
