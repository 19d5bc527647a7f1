(** The value state machine accepts exactly the value grammar: each step of the machine
    corresponds to reading one token of the language that the state still expects. *)
From Coq Require Import ZArith List Bool String Lia Sorted.
From Verif Require Import Outcome JsBigintModel TokenizerModel TokenizerSpec ValueModel ParserModel ParserSpec BTreeProofs TextSpec TextProofs.
Import ListNotations.
Open Scope Z_scope.

(** ** Objects *)
Definition ins_all {V} (m : list (list Z * V)) (kvs : list (list Z * V)) : list (list Z * V) :=
  fold_left (fun m kv => bt_insert m (fst kv) (snd kv)) kvs m.
Definition ukeys {V} (m : list (list Z * V)) : list (list Z * V) := map (fun kv => (utf16 (fst kv), snd kv)) m.

Lemma lookup_bt m k : lookup m k = bt_get m k.
Proof.
  induction m as [|[a t] m IH]; cbn; [reflexivity|].
  destruct (list_eq_dec Z.eq_dec k a) as [->|n]; [rewrite str_cmp_refl; reflexivity|].
  destruct (str_cmp k a) eqn:E; try exact IH. apply str_cmp_eq in E. congruence.
Qed.

Lemma lookup_app a b k : lookup (a ++ b) k = match lookup a k with Some t => Some t | None => lookup b k end.
Proof. induction a as [|[x t] a IH]; cbn; [reflexivity|]. destruct (list_eq_dec Z.eq_dec k x); auto. Qed.

Lemma ins_all_get (m kvs : list (list Z * tree)) k :
  bt_get (ins_all m kvs) k = match lookup (rev kvs) k with Some t => Some t | None => bt_get m k end.
Proof.
  revert m. induction kvs as [|[a t] kvs IH]; intros m; [reflexivity|].
  change (ins_all m ((a, t) :: kvs)) with (ins_all (bt_insert m a t) kvs). cbn [rev].
  rewrite IH, lookup_app. destruct (lookup (rev kvs) k); [reflexivity|]. cbn. rewrite bt_get_insert.
  destruct (list_eq_dec Z.eq_dec k a); reflexivity.
Qed.

Lemma ins_all_sorted {V} (m kvs : list (list Z * V)) : sorted m -> sorted (ins_all m kvs).
Proof. revert m. induction kvs as [|[a t] kvs IH]; intros m H; [exact H|]. apply (IH (bt_insert m a t)), sorted_insert, H. Qed.

Lemma is_object_iff kvs o : is_object kvs o <-> o = ukeys (ins_all [] kvs).
Proof.
  assert (Hg : forall k, bt_get (ins_all [] kvs) k = lookup (rev kvs) k).
  { intros k. rewrite ins_all_get. cbn. destruct (lookup (rev kvs) k); reflexivity. }
  split.
  - intros (m & Hs & Hl & ->). rewrite <- utf16_units_keys. unfold ukeys. f_equal. apply sorted_ext.
    + apply sorted_text, Hs.
    + apply ins_all_sorted. constructor.
    + intros k. rewrite Hg, <- Hl. symmetry. apply lookup_bt.
  - intros ->. exists (ins_all [] kvs). split; [apply sorted_text, ins_all_sorted; constructor|]. split; [|apply utf16_units_keys].
    intros k. rewrite lookup_bt. apply Hg.
Qed.

(** ** Scalars *)
Definition env_rel (env : list (list Z * tree)) (consts : list (list Z * any)) : Prop :=
  forall k, lookup env k = option_map erase (bt_get consts k).

Lemma str_eqb_eq a b : str_eqb a b = true <-> a = b.
Proof. unfold str_eqb. rewrite <- str_cmp_eq. destruct (str_cmp a b); split; congruence. Qed.
Lemma str_eqb_neq a b : str_eqb a b = false <-> a <> b.
Proof. rewrite <- str_eqb_eq. destruct (str_eqb a b); split; congruence. Qed.
Lemma str_eqb_refl a : str_eqb a a = true.
Proof. apply str_eqb_eq. reflexivity. Qed.

Lemma scalar_iff env consts tok t :
  env_rel env consts -> scalar env tok t <-> exists v, try_to_any tok consts = Some v /\ erase v = t.
Proof.
  intros He. split.
  - intros H. destruct H; cbn; try (eexists; split; [reflexivity|cbn [erase]; rewrite ?utf16_units; reflexivity]).
    unfold try_id_to_any, id_null, id_true, id_false. apply str_eqb_neq in H, H0, H1. rewrite H, H0, H1.
    rewrite He in H2. destruct (bt_get consts s) as [v|]; [|discriminate]. injection H2 as <-. eauto.
  - intros (v & Hv & <-).
    assert (Hid : forall s, try_id_to_any s consts = Some v -> scalar env (TId s) (erase v)).
    { clear Hv. intros s Hv. unfold try_id_to_any, id_null, id_true, id_false in Hv.
      destruct (str_eqb s (txt "null")) eqn:E1; [apply str_eqb_eq in E1; subst; injection Hv as <-; constructor|].
      destruct (str_eqb s (txt "true")) eqn:E2; [apply str_eqb_eq in E2; subst; injection Hv as <-; constructor|].
      destruct (str_eqb s (txt "false")) eqn:E3; [apply str_eqb_eq in E3; subst; injection Hv as <-; constructor|].
      apply str_eqb_neq in E1, E2, E3. apply sc_name; auto. rewrite He, Hv. reflexivity. }
    destruct tok; cbn in Hv; try discriminate; try (injection Hv as <-; cbn [erase]; rewrite ?utf16_units; constructor). auto.
Qed.

(** ** The language expected by a state *)
Section Residual.
Variable mods : list Z -> tree -> Prop.
Variable env : list (list Z * tree).
Notation gval := (gval mods env).
Notation gelems := (gelems mods env).
Notation gmembers := (gmembers mods env).

Definition etail (d : data_type) (body : list token) (d1 : data_type) (ts : list tree) : Prop :=
  (body = [] /\ d1 = d /\ ts = []) \/ exists b, body = TComma :: b /\ gelems PNext d b d1 ts.
Definition mtail (d : data_type) (body : list token) (d1 : data_type) (kvs : list (list Z * tree)) : Prop :=
  (body = [] /\ d1 = d /\ kvs = []) \/ exists b, body = TComma :: b /\ gmembers false d b d1 kvs.

Fixpoint after (fs : list stack_element) (d : data_type) (t : tree) (toks : list token) (d' : data_type) (t' : tree) : Prop :=
  match fs with
  | [] => toks = [] /\ d' = d /\ t' = t
  | StArray items :: fs' => exists body post ts d1,
      toks = body ++ TArrayEnd :: post /\ etail d body d1 ts
      /\ after fs' d1 (VArray (map erase items ++ t :: ts)) post d' t'
  | StObject m k :: fs' => exists body post kvs d1,
      toks = body ++ TObjectEnd :: post /\ mtail d body d1 kvs
      /\ after fs' d1 (VObject (ukeys (ins_all (bt_insert (vmap erase m) k t) kvs))) post d' t'
  end.

Definition vthen (p : position) (fs : list stack_element) (d : data_type) (toks : list token) (d' : data_type) (t' : tree) : Prop :=
  exists a post t d1, toks = a ++ post /\ gval p d a d1 t /\ after fs d1 t post d' t'.

Definition res (s : any_state) (toks : list token) (d' : data_type) (t' : tree) : Prop :=
  let d := as_type s in
  let fs := as_stack s in
  match as_status s, as_current s with
  | SInitial, JNone => vthen PElsewhere [] d toks d' t'
  | SObjectColon, JStack e => vthen PElsewhere (e :: fs) d toks d' t'
  | SArrayBegin, JStack (StArray items) => exists body post ts d1,
      toks = body ++ TArrayEnd :: post /\ gelems PFirst d body d1 ts
      /\ after fs d1 (VArray (map erase items ++ ts)) post d' t'
  | SArrayComma, JStack (StArray items) => exists body post ts d1,
      toks = body ++ TArrayEnd :: post /\ gelems PNext d body d1 ts
      /\ after fs d1 (VArray (map erase items ++ ts)) post d' t'
  | SArrayValue, JStack (StArray items) => exists body post ts d1,
      toks = body ++ TArrayEnd :: post /\ etail d body d1 ts
      /\ after fs d1 (VArray (map erase items ++ ts)) post d' t'
  | SObjectBegin, JStack (StObject m _) => exists body post kvs d1,
      toks = body ++ TObjectEnd :: post /\ gmembers true d body d1 kvs
      /\ after fs d1 (VObject (ukeys (ins_all (vmap erase m) kvs))) post d' t'
  | SObjectComma, JStack (StObject m _) => exists body post kvs d1,
      toks = body ++ TObjectEnd :: post /\ gmembers false d body d1 kvs
      /\ after fs d1 (VObject (ukeys (ins_all (vmap erase m) kvs))) post d' t'
  | SObjectValue, JStack (StObject m _) => exists body post kvs d1,
      toks = body ++ TObjectEnd :: post /\ mtail d body d1 kvs
      /\ after fs d1 (VObject (ukeys (ins_all (vmap erase m) kvs))) post d' t'
  | SObjectKey, JStack e => exists toks', toks = TColon :: toks' /\ vthen PElsewhere (e :: fs) d toks' d' t'
  | SImportBegin, JNone => exists m post t,
      toks = TOpenPar :: TString m :: TClosePar :: post /\ mods m t /\ after fs d t post d' t'
  | SImportValue, JNone => exists m post t,
      toks = TString m :: TClosePar :: post /\ mods m t /\ after fs d t post d' t'
  | SImportEnd, JAny a => exists post, toks = TClosePar :: post /\ after fs d (erase a) post d' t'
  | _, _ => False
  end.

(** Well-formed states: the current element fits the status. *)
Definition wf (s : any_state) : Prop :=
  match as_status s, as_current s with
  | SInitial, JNone => as_stack s = []
  | SArrayBegin, JStack (StArray _) | SArrayComma, JStack (StArray _) | SArrayValue, JStack (StArray _) => True
  | SObjectBegin, JStack (StObject _ _) | SObjectComma, JStack (StObject _ _) | SObjectValue, JStack (StObject _ _)
  | SObjectKey, JStack (StObject _ _) | SObjectColon, JStack (StObject _ _) => True
  | SImportBegin, JNone | SImportValue, JNone | SImportEnd, JAny _ => True
  | _, _ => False
  end.

Definition rres (r : any_result) (toks : list token) (d' : data_type) (t' : tree) : Prop :=
  match r with
  | RContinue s => res s toks d' t'
  | RSuccess s v => toks = [] /\ d' = as_type s /\ t' = erase v
  | RError _ => False
  end.
Definition rwf (r : any_result) : Prop :=
  match r with
  | RContinue s => wf s
  | RSuccess s _ => as_status s = SInitial /\ as_current s = JNone /\ as_stack s = []
  | RError _ => True
  end.
Definition rconsts (r : any_result) (consts : list (list Z * any)) : Prop :=
  match r with RContinue s | RSuccess s _ => as_consts s = consts | RError _ => True end.

(** A place where a value can be put: nothing around it, or an open array or object. *)
Definition open_place (s : any_state) (fs : list stack_element) : Prop :=
  (as_current s = JNone /\ as_stack s = [] /\ fs = [])
  \/ (exists e fs', as_current s = JStack e /\ as_stack s = fs' /\ fs = e :: fs').

Lemma push_value_res s fs v :
  open_place s fs ->
  exists r, push_value s v = Ok r /\ rwf r /\ rconsts r (as_consts s)
    /\ forall toks d' t', rres r toks d' t' <-> after fs (as_type s) (erase v) toks d' t'.
Proof.
  intros [(Hc & Hst & ->)|(e & fs' & Hc & Hst & ->)]; unfold push_value; rewrite Hc.
  - eexists. split; [reflexivity|]. split; [cbn; auto|]. split; [reflexivity|].
    intros. cbn. tauto.
  - destruct e as [m k|items].
    + eexists. split; [reflexivity|]. split; [exact I|]. split; [reflexivity|].
      intros toks d' t'. cbn -[bt_insert ukeys ins_all vmap]. rewrite Hst, vmap_insert. tauto.
    + eexists. split; [reflexivity|]. split; [exact I|]. split; [reflexivity|].
      intros toks d' t'. cbn. rewrite Hst, map_app. cbn.
      split; intros (body & post & ts & d1 & H1 & H2 & H3); exists body, post, ts, d1;
        rewrite <- app_assoc in *; cbn in *; auto.
Qed.

(** The pattern shared by the three value positions. *)
Definition vstep (p : position) (s : any_state) (t : token) : outcome any_result :=
  match t with
  | TArrayBegin => Ok (begin_array s)
  | TObjectBegin => Ok (begin_object s)
  | TId i => if require_ok p (as_type s) && str_eqb i id_require then Ok (begin_import s) else parse_scalar s t
  | _ => parse_scalar s t
  end.

Lemma pushed_open s fs : open_place s fs -> pushed_stack s = fs.
Proof. intros [(Hc & Hst & ->)|(e & fs' & Hc & Hst & ->)]; unfold pushed_stack; rewrite Hc; congruence. Qed.

Lemma gval_inv p d tok toks d1 t post' :
  tok :: toks = post' -> forall a post, post' = a ++ post -> gval p d a d1 t ->
  (exists rest, a = tok :: rest /\ toks = rest ++ post).
Proof.
  intros <- a post E H. destruct H; injection E as -> ->; eauto.
Qed.

Lemma parse_scalar_res p s fs t :
  open_place s fs -> env_rel env (as_consts s) ->
  (t = TId (txt "require") -> require_ok p (as_type s) = false) ->
  t <> TArrayBegin -> t <> TObjectBegin ->
  exists r, parse_scalar s t = Ok r /\ rwf r /\ rconsts r (as_consts s)
    /\ forall toks d' t', rres r toks d' t' <-> vthen p fs (as_type s) (t :: toks) d' t'.
Proof.
  intros Ho He Hreq Ha Hob. unfold parse_scalar.
  destruct (try_to_any t (as_consts s)) as [v|] eqn:E.
  - destruct (push_value_res s fs v Ho) as (r & Hr & Hw & Hc & Hi). exists r.
    split; [exact Hr|]. split; [exact Hw|]. split; [exact Hc|]. intros toks d' t'. rewrite Hi. split.
    + intros H. exists [t], toks, (erase v), (as_type s). split; [reflexivity|]. split; [|exact H].
      apply gv_scalar; [|exact Hreq]. apply (scalar_iff _ _ _ _ He). eauto.
    + intros (a & post & u & d1 & Heq & Hg & Haf).
      inversion Hg; subst.
      * injection Heq as <- ->. apply (scalar_iff _ _ _ _ He) in H as (v' & Hv' & <-).
        rewrite E in Hv'. injection Hv' as <-. exact Haf.
      * injection Heq as -> _. rewrite Hreq in H by reflexivity. discriminate.
      * injection Heq as -> _. congruence.
      * injection Heq as -> _. congruence.
  - eexists. split; [reflexivity|]. split; [exact I|]. split; [exact I|]. intros toks d' t'. cbn. split; [tauto|].
    intros (a & post & u & d1 & Heq & Hg & Haf). inversion Hg; subst.
    + injection Heq as <- ->. apply (scalar_iff _ _ _ _ He) in H as (v' & Hv' & <-). congruence.
    + injection Heq as -> _. rewrite Hreq in H by reflexivity. discriminate.
    + injection Heq as -> _. congruence.
    + injection Heq as -> _. congruence.
Qed.

Lemma vstep_res p s fs t :
  open_place s fs -> env_rel env (as_consts s) ->
  exists r, vstep p s t = Ok r /\ rwf r /\ rconsts r (as_consts s)
    /\ forall toks d' t', rres r toks d' t' <-> vthen p fs (as_type s) (t :: toks) d' t'.
Proof.
  intros Ho He.
  pose proof (fun H => parse_scalar_res p s fs t Ho He H) as Hsc.
  pose proof (pushed_open s fs Ho) as Hp.
  destruct t; try (apply Hsc; discriminate); cbn [vstep].
  - (* object *)
    eexists. split; [reflexivity|]. split; [exact I|]. split; [reflexivity|]. intros toks d' t'.
    cbn -[ukeys ins_all]. rewrite Hp. split.
    + intros (body & post & kvs & d1 & -> & Hg & Haf). exists (TObjectBegin :: body ++ [TObjectEnd]), post. eexists. exists d1.
      split; [cbn; rewrite <- app_assoc; reflexivity|]. split; [|exact Haf].
      apply gv_object with kvs; [exact Hg|]. apply is_object_iff. reflexivity.
    + intros (a & post & u & d1 & Heq & Hg & Haf). inversion Hg; subst; try discriminate.
      * injection Heq as <- ->. inversion H.
      * apply is_object_iff in H0. subst o. cbn in Heq. rewrite <- app_assoc in Heq. injection Heq as ->.
        exists body, post, kvs, d1. auto.
  - (* array *)
    eexists. split; [reflexivity|]. split; [exact I|]. split; [reflexivity|]. intros toks d' t'.
    cbn. rewrite Hp. split.
    + intros (body & post & ts & d1 & -> & Hg & Haf). exists (TArrayBegin :: body ++ [TArrayEnd]), post. eexists. exists d1.
      split; [cbn; rewrite <- app_assoc; reflexivity|]. split; [|exact Haf].
      apply gv_array; exact Hg.
    + intros (a & post & u & d1 & Heq & Hg & Haf). inversion Hg; subst; try discriminate.
      * injection Heq as <- ->. inversion H.
      * cbn in Heq. rewrite <- app_assoc in Heq. injection Heq as ->. exists body, post, ts, d1. auto.
  - (* identifiers *)
    destruct (require_ok p (as_type s) && str_eqb s0 id_require) eqn:E.
    + apply andb_prop in E as [E1 E2]. apply str_eqb_eq in E2. subst s0.
      eexists. split; [reflexivity|]. split; [exact I|]. split; [reflexivity|]. intros toks d' t'.
      cbn [rres begin_import res as_type as_status as_current as_stack]. rewrite Hp. split.
      * intros (m & post & u & -> & Hm & Haf). exists [TId id_require; TOpenPar; TString m; TClosePar], post, u, Cjs.
        split; [reflexivity|]. split; [|exact Haf]. apply gv_require; assumption.
      * intros (a & post & u & d1 & Heq & Hg & Haf). inversion Hg; subst; try discriminate.
        -- injection Heq as <- ->. rewrite H0 in E1 by reflexivity. discriminate.
        -- injection Heq as ->. exists m, post, u. auto.
    + apply Hsc; try discriminate. intros [=->]. unfold id_require in E. rewrite str_eqb_refl, andb_true_r in E. exact E.
Qed.

Lemma popped_frames s fs :
  as_stack s = fs -> open_place (popped s) fs /\ as_type (popped s) = as_type s /\ as_consts (popped s) = as_consts s.
Proof.
  intros <-. unfold popped. destruct (as_stack s) as [|e st] eqn:E; cbn.
  - split; [left|auto]. cbn. auto.
  - split; [right|auto]. exists e, st. cbn. auto.
Qed.

Lemma end_array_res s n items :
  as_current s = JStack (StArray items) ->
  exists r, end_array s n = Ok (r, n + 1) /\ rwf r /\ rconsts r (as_consts s)
    /\ forall toks d' t', rres r toks d' t' <-> after (as_stack s) (as_type s) (VArray (map erase items)) toks d' t'.
Proof.
  intros Hc. unfold end_array. rewrite Hc.
  destruct (popped_frames s _ eq_refl) as (Ho & Ht & Hcs).
  destruct (push_value_res (popped s) _ (AArray n items) Ho) as (r & Hr & Hw & Hrc & Hi).
  exists r. unfold opure. rewrite Hr. cbn. rewrite Hcs in Hrc. rewrite Ht in Hi. auto.
Qed.

Lemma end_object_res s n m k :
  as_current s = JStack (StObject m k) ->
  exists r, end_object s n = Ok (r, n + 1) /\ rwf r /\ rconsts r (as_consts s)
    /\ forall toks d' t', rres r toks d' t' <-> after (as_stack s) (as_type s) (VObject (ukeys (vmap erase m))) toks d' t'.
Proof.
  intros Hc. unfold end_object. rewrite Hc.
  destruct (popped_frames s _ eq_refl) as (Ho & Ht & Hcs).
  destruct (push_value_res (popped s) _ (AObject n (map (fun kv => (utf16 (fst kv), snd kv)) m)) Ho) as (r & Hr & Hw & Hrc & Hi).
  exists r. unfold opure. rewrite Hr. cbn [obind]. rewrite Hcs in Hrc. rewrite Ht in Hi. cbn [erase] in Hi.
  split; [reflexivity|]. split; [exact Hw|]. split; [exact Hrc|]. intros toks d' t'. rewrite Hi.
  unfold ukeys, vmap. rewrite !map_map. cbn. tauto.
Qed.

Lemma parse_value_vstep s t : parse_value s t = vstep PElsewhere s t.
Proof. reflexivity. Qed.
Lemma parse_array_begin_vstep s n t :
  parse_array_begin s n t = match t with TArrayEnd => end_array s n | _ => opure n (vstep PFirst s t) end.
Proof. destruct t; reflexivity. Qed.
Lemma parse_array_comma_vstep s n t :
  parse_array_comma s n t = match t with TArrayEnd => end_array s n | _ => opure n (vstep PNext s t) end.
Proof. destruct t; try reflexivity. cbn [parse_array_comma vstep require_ok]. change now_cjs with is_cjs; destruct (is_cjs (as_type s) && str_eqb s0 id_require); reflexivity. Qed.

Lemma gval_not_end p d a d1 t r : gval p d a d1 t -> a = TArrayEnd :: r -> False.
Proof. intros H. destruct H; intros E; try discriminate. injection E as -> _. inversion H. Qed.

(** A value inside an array, then the rest of the array. *)
Lemma elems_vthen p items fs d t toks d' t' :
  t <> TArrayEnd ->
  vthen p (StArray items :: fs) d (t :: toks) d' t' <->
  (exists body post ts d1, t :: toks = body ++ TArrayEnd :: post /\ gelems p d body d1 ts
      /\ after fs d1 (VArray (map erase items ++ ts)) post d' t').
Proof.
  intros Hne. split.
  - intros (a & post & u & d1 & Heq & Hg & body & post' & ts & d2 & -> & Ht & Haf).
    destruct Ht as [(-> & -> & ->)|(b & -> & Hb)].
    + exists a, post', [u], d1. split; [exact Heq|]. split; [apply ge_last; exact Hg|exact Haf].
    + exists (a ++ TComma :: b), post', (u :: ts), d2. split; [rewrite Heq, <- app_assoc; reflexivity|].
      split; [eapply ge_cons; eassumption|exact Haf].
  - intros (body & post & ts & d1 & Heq & Hg & Haf). inversion Hg; subst.
    + injection Heq as -> _. congruence.
    + exists body, (TArrayEnd :: post), t0, d1. split; [exact Heq|]. split; [assumption|].
      exists [], post, [], d1. split; [reflexivity|]. split; [left; auto|exact Haf].
    + exists a, (TComma :: b ++ TArrayEnd :: post), t0, d2. split; [rewrite Heq, <- app_assoc; reflexivity|]. split; [assumption|].
      exists (TComma :: b), post, ts0, d1. split; [reflexivity|]. split; [right; eauto|exact Haf].
Qed.

Lemma elems_end p items fs d toks d' t' :
  after fs d (VArray (map erase items)) toks d' t' <->
  (exists body post ts d1, TArrayEnd :: toks = body ++ TArrayEnd :: post /\ gelems p d body d1 ts
      /\ after fs d1 (VArray (map erase items ++ ts)) post d' t').
Proof.
  split.
  - intros H. exists [], toks, [], d. split; [reflexivity|]. split; [constructor|]. rewrite app_nil_r. exact H.
  - intros (body & post & ts & d1 & Heq & Hg & Haf). inversion Hg; subst.
    + injection Heq as ->. rewrite app_nil_r in Haf. exact Haf.
    + destruct body as [|x r]; [inversion H|]. injection Heq as <- _. exfalso. eapply gval_not_end; [exact H|reflexivity].
    + destruct a as [|x r]; [inversion H|]. injection Heq as <- _. exfalso. eapply gval_not_end; [exact H|reflexivity].
Qed.

(** A key, then the rest of the object. *)
Lemma members_key f m fs d tok toks d' t' :
  tok <> TObjectEnd ->
  (exists k toks', key_token f d tok k /\ toks = TColon :: toks' /\ vthen PElsewhere (StObject m k :: fs) d toks' d' t') <->
  (exists body post kvs d1, tok :: toks = body ++ TObjectEnd :: post /\ gmembers f d body d1 kvs
      /\ after fs d1 (VObject (ukeys (ins_all (vmap erase m) kvs))) post d' t').
Proof.
  intros Hne. split.
  - intros (k & toks' & Hk & -> & a & post & u & d1 & -> & Hg & body & post' & kvs & d2 & -> & Ht & Haf).
    destruct Ht as [(-> & -> & ->)|(b & -> & Hb)].
    + exists (tok :: TColon :: a), post', [(k, u)], d1. split; [reflexivity|]. split; [apply gm_last; assumption|exact Haf].
    + exists (tok :: TColon :: a ++ TComma :: b), post', ((k, u) :: kvs), d2.
      split; [cbn; rewrite <- app_assoc; reflexivity|]. split; [eapply gm_cons; eassumption|exact Haf].
  - intros (body & post & kvs & d1 & Heq & Hg & Haf). inversion Hg; subst.
    + injection Heq as -> _. congruence.
    + injection Heq as <- ->. exists k, (a ++ TObjectEnd :: post). split; [assumption|]. split; [reflexivity|].
      exists a, (TObjectEnd :: post), t, d1. split; [reflexivity|]. split; [assumption|].
      exists [], post, [], d1. split; [reflexivity|]. split; [left; auto|exact Haf].
    + injection Heq as <- ->. exists k, ((a ++ TComma :: b) ++ TObjectEnd :: post). split; [assumption|]. split; [reflexivity|].
      exists a, (TComma :: b ++ TObjectEnd :: post), t, d2. split; [rewrite <- app_assoc; reflexivity|]. split; [assumption|].
      exists (TComma :: b), post, kvs0, d1. split; [reflexivity|]. split; [right; eauto|exact Haf].
Qed.

Lemma members_end f m fs d toks d' t' :
  after fs d (VObject (ukeys (vmap erase m))) toks d' t' <->
  (exists body post kvs d1, TObjectEnd :: toks = body ++ TObjectEnd :: post /\ gmembers f d body d1 kvs
      /\ after fs d1 (VObject (ukeys (ins_all (vmap erase m) kvs))) post d' t').
Proof.
  split.
  - intros H. exists [], toks, [], d. split; [reflexivity|]. split; [constructor|]. exact H.
  - intros (body & post & kvs & d1 & Heq & Hg & Haf). inversion Hg; subst.
    + injection Heq as ->. exact Haf.
    + injection Heq as <- _. inversion H.
    + injection Heq as <- _. inversion H.
Qed.

Ltac fin := split; [reflexivity|]; split; [exact I|]; split; [try exact I; try reflexivity|].

(** One step of the machine reads one token of the expected language. *)
Lemma common_res s n t :
  wf s -> env_rel env (as_consts s) -> as_status s <> SImportValue ->
  exists r n', any_parse_common s n t = Ok (r, n') /\ rwf r /\ rconsts r (as_consts s)
    /\ forall toks d' t', rres r toks d' t' <-> res s (t :: toks) d' t'.
Proof.
  intros Hwf He Hni. unfold wf in Hwf. unfold any_parse_common.
  destruct (as_status s) eqn:Es; [| | | | | | | | | | congruence |].
  - (* Initial *)
    destruct (as_current s) eqn:Ec; try contradiction.
    destruct (vstep_res PElsewhere s [] t) as (r & Hr & H); [left; auto|exact He|].
    exists r, n. rewrite parse_value_vstep, Hr. split; [reflexivity|]. unfold res. rewrite Es, Ec. exact H.
  - (* ArrayBegin *)
    destruct (as_current s) as [|[|items]|] eqn:Ec; try contradiction.
    rewrite parse_array_begin_vstep.
    assert (t = TArrayEnd \/ t <> TArrayEnd) as [->|Ht] by (destruct t; (left; congruence) || (right; congruence)).
    + destruct (end_array_res s n items Ec) as (r & Hr & Hw & Hc & Hi). exists r, (n + 1).
      split; [exact Hr|]. split; [exact Hw|]. split; [exact Hc|]. intros. rewrite Hi. unfold res. rewrite Es, Ec. apply elems_end.
    + destruct (vstep_res PFirst s (StArray items :: as_stack s) t) as (r & Hr & Hw & Hc & Hi); [right; eauto|exact He|].
      exists r, n. split; [destruct t; try (unfold opure; rewrite Hr; reflexivity); congruence|].
      split; [exact Hw|]. split; [exact Hc|]. intros. rewrite Hi. unfold res. rewrite Es, Ec. apply elems_vthen, Ht.
  - (* ArrayValue *)
    destruct (as_current s) as [|[|items]|] eqn:Ec; try contradiction.
    assert (Hres : forall toks d' t', res s toks d' t' <-> exists body post ts d1,
      toks = body ++ TArrayEnd :: post /\ etail (as_type s) body d1 ts
      /\ after (as_stack s) d1 (VArray (map erase items ++ ts)) post d' t').
    { intros. unfold res. rewrite Es, Ec. reflexivity. }
    assert (Herr : t <> TArrayEnd -> t <> TComma ->
      exists r n', pure n (RError UnexpectedToken) = Ok (r, n') /\ rwf r /\ rconsts r (as_consts s)
        /\ forall toks d' t', rres r toks d' t' <-> res s (t :: toks) d' t').
    { intros H1 H2. exists (RError UnexpectedToken), n. fin. intros. rewrite Hres. cbn. split; [tauto|].
      intros (body & post & ts & d1 & Heq & [(-> & _ & _)|(b & -> & _)] & _); injection Heq as -> _; congruence. }
    destruct t; try (apply Herr; discriminate); cbn [parse_array_value].
    + destruct (end_array_res s n items Ec) as (r & Hr & Hw & Hc & Hi). exists r, (n + 1).
      split; [exact Hr|]. split; [exact Hw|]. split; [exact Hc|]. intros. rewrite Hi, Hres. split.
      * intros H. exists [], toks, [], (as_type s). split; [reflexivity|]. split; [left; auto|]. rewrite app_nil_r. exact H.
      * intros (body & post & ts & d1 & Heq & [(-> & -> & ->)|(b & -> & _)] & Haf); [|discriminate].
        injection Heq as ->. rewrite app_nil_r in Haf. exact Haf.
    + eexists. exists n. split; [reflexivity|]. split; [cbn; unfold wf; cbn; rewrite Ec; exact I|].
      split; [reflexivity|]. intros. rewrite Hres. cbn. unfold res. cbn. rewrite Ec. split.
      * intros (body & post & ts & d1 & -> & Hg & Haf). exists (TComma :: body), post, ts, d1.
        split; [reflexivity|]. split; [right; eauto|exact Haf].
      * intros (body & post & ts & d1 & Heq & [(-> & -> & ->)|(b & -> & Hb)] & Haf); [discriminate|].
        injection Heq as ->. exists b, post, ts, d1. auto.
  - (* ArrayComma *)
    destruct (as_current s) as [|[|items]|] eqn:Ec; try contradiction.
    rewrite parse_array_comma_vstep.
    assert (t = TArrayEnd \/ t <> TArrayEnd) as [->|Ht] by (destruct t; (left; congruence) || (right; congruence)).
    + destruct (end_array_res s n items Ec) as (r & Hr & Hw & Hc & Hi). exists r, (n + 1).
      split; [exact Hr|]. split; [exact Hw|]. split; [exact Hc|]. intros. rewrite Hi. unfold res. rewrite Es, Ec. apply elems_end.
    + destruct (vstep_res PNext s (StArray items :: as_stack s) t) as (r & Hr & Hw & Hc & Hi); [right; eauto|exact He|].
      exists r, n. split; [destruct t; try (unfold opure; rewrite Hr; reflexivity); congruence|].
      split; [exact Hw|]. split; [exact Hc|]. intros. rewrite Hi. unfold res. rewrite Es, Ec. apply elems_vthen, Ht.
  - (* ObjectBegin *)
    destruct (as_current s) as [|[m k|]|] eqn:Ec; try contradiction.
    assert (Hres : forall toks d' t', res s toks d' t' <-> exists body post kvs d1,
      toks = body ++ TObjectEnd :: post /\ gmembers true (as_type s) body d1 kvs
      /\ after (as_stack s) d1 (VObject (ukeys (ins_all (vmap erase m) kvs))) post d' t').
    { intros. unfold res. rewrite Es, Ec. reflexivity. }
    assert (Hkey : forall k0, key_token true (as_type s) t k0 ->
      exists r n', pure n (push_key s k0) = Ok (r, n') /\ rwf r /\ rconsts r (as_consts s)
        /\ forall toks d' t', rres r toks d' t' <-> res s (t :: toks) d' t').
    { intros k0 Hk. unfold push_key. rewrite Ec. eexists. exists n. split; [reflexivity|]. split; [exact I|]. split; [reflexivity|].
      intros. rewrite Hres. assert (t <> TObjectEnd) as Hne by (destruct Hk; discriminate).
      rewrite <- (members_key true m (as_stack s) (as_type s) t toks d' t' Hne).
      cbn [rres res set_current set_status as_status as_current as_type as_stack]. split.
      - intros (toks' & -> & H). eauto.
      - intros (k1 & toks' & Hk1 & -> & H). exists toks'. split; [reflexivity|].
        assert (k1 = k0) as -> by (destruct Hk; inversion Hk1; auto). exact H. }
    assert (Herr : (forall k0, ~ key_token true (as_type s) t k0) -> t <> TObjectEnd ->
      exists r n', pure n (RError UnexpectedToken) = Ok (r, n') /\ rwf r /\ rconsts r (as_consts s)
        /\ forall toks d' t', rres r toks d' t' <-> res s (t :: toks) d' t').
    { intros H1 H2. exists (RError UnexpectedToken), n. fin. intros. rewrite Hres.
      rewrite <- (members_key true m (as_stack s) (as_type s) t toks d' t' H2). cbn. split; [tauto|].
      intros (k0 & toks' & Hk & _). exact (H1 _ Hk). }
    destruct t; try (apply Herr; [intros ? Hx; inversion Hx|discriminate]); cbn [parse_object_begin].
    + apply Hkey. constructor.
    + destruct (end_object_res s n m k Ec) as (r & Hr & Hw & Hc & Hi). exists r, (n + 1).
      split; [exact Hr|]. split; [exact Hw|]. split; [exact Hc|]. intros. rewrite Hi, Hres. apply members_end.
    + destruct (is_djs (as_type s)) eqn:Ed; [apply Hkey; constructor; auto|].
      apply Herr; [|discriminate]. intros k0 Hx. inversion Hx. change is_djs with beyond_json in Ed. congruence.
  - (* ObjectKey *)
    destruct (as_current s) as [|[m k|]|] eqn:Ec; try contradiction.
    assert (Hres : forall toks d' t', res s toks d' t' <->
      exists toks', toks = TColon :: toks' /\ vthen PElsewhere (StObject m k :: as_stack s) (as_type s) toks' d' t').
    { intros. unfold res. rewrite Es, Ec. reflexivity. }
    assert (Herr : t <> TColon ->
      exists r n', pure n (RError UnexpectedToken) = Ok (r, n') /\ rwf r /\ rconsts r (as_consts s)
        /\ forall toks d' t', rres r toks d' t' <-> res s (t :: toks) d' t').
    { intros H. exists (RError UnexpectedToken), n. fin. intros. rewrite Hres. cbn. split; [tauto|].
      intros (toks' & Heq & _). congruence. }
    destruct t; try (apply Herr; discriminate); cbn [parse_object_key].
    eexists. exists n. split; [reflexivity|]. split; [unfold rwf, wf; cbn; rewrite Ec; exact I|]. split; [reflexivity|].
    intros. rewrite Hres. cbn [rres]. unfold res. cbn [set_status as_status as_current as_type as_stack]. rewrite Ec. split.
    + intros H. eauto.
    + intros (toks' & Heq & H). injection Heq as ->. exact H.
  - (* ObjectColon *)
    destruct (as_current s) as [|[m k|]|] eqn:Ec; try contradiction.
    destruct (vstep_res PElsewhere s (StObject m k :: as_stack s) t) as (r & Hr & H); [right; eauto|exact He|].
    exists r, n. rewrite parse_value_vstep, Hr. split; [reflexivity|]. unfold res. rewrite Es, Ec. exact H.
  - (* ObjectValue *)
    destruct (as_current s) as [|[m k|]|] eqn:Ec; try contradiction.
    assert (Hres : forall toks d' t', res s toks d' t' <-> exists body post kvs d1,
      toks = body ++ TObjectEnd :: post /\ mtail (as_type s) body d1 kvs
      /\ after (as_stack s) d1 (VObject (ukeys (ins_all (vmap erase m) kvs))) post d' t').
    { intros. unfold res. rewrite Es, Ec. reflexivity. }
    assert (Herr : t <> TObjectEnd -> t <> TComma ->
      exists r n', pure n (RError UnexpectedToken) = Ok (r, n') /\ rwf r /\ rconsts r (as_consts s)
        /\ forall toks d' t', rres r toks d' t' <-> res s (t :: toks) d' t').
    { intros H1 H2. exists (RError UnexpectedToken), n. fin. intros. rewrite Hres. cbn. split; [tauto|].
      intros (body & post & ts & d1 & Heq & [(-> & _ & _)|(b & -> & _)] & _); injection Heq as -> _; congruence. }
    destruct t; try (apply Herr; discriminate); cbn [parse_object_next].
    + destruct (end_object_res s n m k Ec) as (r & Hr & Hw & Hc & Hi). exists r, (n + 1).
      split; [exact Hr|]. split; [exact Hw|]. split; [exact Hc|]. intros. rewrite Hi, Hres. split.
      * intros H. exists [], toks, [], (as_type s). split; [reflexivity|]. split; [left; auto|]. exact H.
      * intros (body & post & kvs & d1 & Heq & [(-> & -> & ->)|(b & -> & _)] & Haf); [|discriminate].
        injection Heq as ->. exact Haf.
    + eexists. exists n. split; [reflexivity|]. split; [cbn; unfold wf; cbn; rewrite Ec; exact I|].
      split; [reflexivity|]. intros. rewrite Hres. cbn [rres]. unfold res. cbn [set_status as_status as_current as_type as_stack]. rewrite Ec. split.
      * intros (body & post & kvs & d1 & -> & Hg & Haf). exists (TComma :: body), post, kvs, d1.
        split; [reflexivity|]. split; [right; eauto|exact Haf].
      * intros (body & post & kvs & d1 & Heq & [(-> & -> & ->)|(b & -> & Hb)] & Haf); [discriminate|].
        injection Heq as ->. exists b, post, kvs, d1. auto.
  - (* ObjectComma *)
    destruct (as_current s) as [|[m k|]|] eqn:Ec; try contradiction.
    assert (Hres : forall toks d' t', res s toks d' t' <-> exists body post kvs d1,
      toks = body ++ TObjectEnd :: post /\ gmembers false (as_type s) body d1 kvs
      /\ after (as_stack s) d1 (VObject (ukeys (ins_all (vmap erase m) kvs))) post d' t').
    { intros. unfold res. rewrite Es, Ec. reflexivity. }
    assert (Herr : (forall k0, ~ key_token false (as_type s) t k0) -> t <> TObjectEnd ->
      exists r n', pure n (RError UnexpectedToken) = Ok (r, n') /\ rwf r /\ rconsts r (as_consts s)
        /\ forall toks d' t', rres r toks d' t' <-> res s (t :: toks) d' t').
    { intros H1 H2. exists (RError UnexpectedToken), n. fin. intros. rewrite Hres.
      rewrite <- (members_key false m (as_stack s) (as_type s) t toks d' t' H2). cbn. split; [tauto|].
      intros (k0 & toks' & Hk & _). exact (H1 _ Hk). }
    destruct t; try (apply Herr; [intros ? Hx; inversion Hx; discriminate|discriminate]); cbn [parse_object_comma].
    + unfold push_key. rewrite Ec. eexists. exists n. split; [reflexivity|]. split; [exact I|]. split; [reflexivity|].
      intros. rewrite Hres.
      rewrite <- (members_key false m (as_stack s) (as_type s) (TString s0) toks d' t' ltac:(discriminate)).
      cbn [rres res set_current set_status as_status as_current as_type as_stack]. split.
      * intros (toks' & -> & H). exists s0, toks'. split; [constructor|auto].
      * intros (k1 & toks' & Hk1 & -> & H). exists toks'. split; [reflexivity|]. inversion Hk1. subst. exact H.
    + destruct (end_object_res s n m k Ec) as (r & Hr & Hw & Hc & Hi). exists r, (n + 1).
      split; [exact Hr|]. split; [exact Hw|]. split; [exact Hc|]. intros. rewrite Hi, Hres. apply members_end.
  - (* ImportBegin *)
    destruct (as_current s) eqn:Ec; try contradiction.
    assert (Hres : forall toks d' t', res s toks d' t' <-> exists m post t,
      toks = TOpenPar :: TString m :: TClosePar :: post /\ mods m t /\ after (as_stack s) (as_type s) t post d' t').
    { intros. unfold res. rewrite Es, Ec. reflexivity. }
    assert (Herr : t <> TOpenPar ->
      exists r n', pure n (RError WrongRequireStatement) = Ok (r, n') /\ rwf r /\ rconsts r (as_consts s)
        /\ forall toks d' t', rres r toks d' t' <-> res s (t :: toks) d' t').
    { intros H. exists (RError WrongRequireStatement), n. fin. intros. rewrite Hres. cbn. split; [tauto|].
      intros (m & post & u & Heq & _). congruence. }
    destruct t; try (apply Herr; discriminate); cbn [parse_import_begin].
    eexists. exists n. split; [reflexivity|]. split; [unfold rwf, wf; cbn; rewrite Ec; exact I|]. split; [reflexivity|].
    intros. rewrite Hres. cbn [rres]. unfold res. cbn [set_status as_status as_current as_type as_stack]. rewrite Ec. split.
    + intros (m & post & u & -> & Hm & Haf). exists m, post, u. auto.
    + intros (m & post & u & Heq & Hm & Haf). injection Heq as ->. exists m, post, u. auto.
  - (* ImportEnd *)
    destruct (as_current s) eqn:Ec; try contradiction.
    assert (Hres : forall toks d' t', res s toks d' t' <-> exists post,
      toks = TClosePar :: post /\ after (as_stack s) (as_type s) (erase a) post d' t').
    { intros. unfold res. rewrite Es, Ec. reflexivity. }
    assert (Herr : t <> TClosePar ->
      exists r n', opure n (Ok (RError WrongRequireStatement)) = Ok (r, n') /\ rwf r /\ rconsts r (as_consts s)
        /\ forall toks d' t', rres r toks d' t' <-> res s (t :: toks) d' t').
    { intros H. exists (RError WrongRequireStatement), n. fin. intros. rewrite Hres. cbn. split; [tauto|].
      intros (post & Heq & _). congruence. }
    destruct t; try (apply Herr; discriminate); cbn [parse_import_end].
    unfold end_import. rewrite Ec.
    destruct (popped_frames (set_status s SInitial) _ eq_refl) as (Ho & Ht & Hcs).
    destruct (push_value_res _ _ a Ho) as (r & Hr & Hw & Hrc & Hi).
    exists r, n. rewrite Hr. cbn [opure obind]. split; [reflexivity|]. split; [exact Hw|].
    rewrite Hcs in Hrc. rewrite Ht in Hi. split; [exact Hrc|]. intros. rewrite Hi, Hres. cbn [set_status as_stack as_type]. split.
    + intros H. eauto.
    + intros (post & Heq & H). injection Heq as ->. exact H.
Qed.
End Residual.
