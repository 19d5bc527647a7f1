(** C98: the converter and bigints, with drops. *)
From Coq Require Import ZArith List Bool String Lia.
From Verif Require Import Outcome VTac JsBigintModel TokenizerModel TokenizerSpec ValueModel ParserModel ParserSpec ParserModules SerializerModel SerializerSpec Prop_Parser Prop_Serializer Prop_Convert Prop_Errors Prop_Frame DropModel DropProofs DropKept DropName.
Import ListNotations.
Open Scope Z_scope.

(** A text without bigint literals. *)
Definition no_literal (ts : list token) : Prop := forall b, ~ In (TBigInt b) ts.
Definition no_literal_in (io : list Z -> option (list Z)) (tf : nat) (p : list Z) : Prop :=
  forall text ts, io p = Some text -> tokenize tf text = Ok ts -> no_literal ts.

Lemma no_literal_cons t ts : no_literal (t :: ts) -> is_bigint t = false /\ no_literal ts.
Proof. intros H. split; [destruct t; try reflexivity; destruct (H b); left; reflexivity|]. intros b Hb. apply (H b). right. exact Hb. Qed.
Lemma name_plain f ts : no_literal ts -> forall i, name_tokens f i ts = ts.
Proof.
  induction ts as [|t ts IH]; intros H i; [reflexivity|]. destruct (no_literal_cons _ _ H) as [Ht Hts]. destruct t; try discriminate Ht; cbn [name_tokens]; rewrite IH; auto.
Qed.

(** * Without bigint literals the drops change nothing *)
Section Free.
Variable io : list Z -> option (list Z).
Variable tf : nat.
Let clean (c : context) : Prop := forall p, In p (cx_log c) -> no_literal_in io tf p.

Lemma free_all (load : list block -> loader) (load' : loader) :
  (forall c m c' x, load' c m = Ok (c', x) -> grows c c') ->
  (forall o c m c' x, held_cache c = [] -> load' c m = Ok (c', x) -> clean c' ->
     load o c m = Ok (c', x) /\ held_cache c' = [] /\ match x with inl a => held a = [] | inr _ => True end) ->
  forall outer ts j c j' c', no_literal ts -> held_json j = [] -> held_cache c = [] -> push_all load' j c ts = Ok (j', c') -> clean c' ->
  d_push_all load outer j c ts = Ok (j', c') /\ held_json j' = [] /\ held_cache c' = [].
Proof.
  intros Hg Hl outer. induction ts as [|t ts IH]; intros j c j' c' Hn Hj Hc H A; cbn [push_all d_push_all] in *; [injection H as <- <-; auto|].
  destruct (no_literal_cons _ _ Hn) as [Ht Hts].
  destruct (cx_push load' j c t) as [[j1 c1]| |] eqn:E; cbn [obind] in H; try discriminate.
  assert (A1 : clean c1) by (intros p Hp; apply A; exact (grows_in _ _ _ (push_all_grows _ Hg _ _ _ _ _ H) Hp)).
  assert (Q : quiet_load load' c c1) by (intros n m r L; destruct (Hl [] (cx_set_next c n) m c1 r Hc L A1) as (_ & Q1 & Q2); auto).
  destruct (push_nil _ _ _ _ _ _ Ht Hj Hc Q E) as [Hj1 Hc1].
  assert (E2 : cx_push (load (held_json j ++ outer)) j c t = Ok (j1, c1)).
  { destruct (push_asks _ _ _ _ _ _ E) as [(_ & S)|(n & m & x & L & _ & S)]; [apply S|]. apply S. exact (proj1 (Hl _ (cx_set_next c n) m c1 x Hc L A1)). }
  unfold d_push. rewrite E2. cbn [obind]. rewrite Hj, Hc. cbn [app kept forallb obind]. exact (IH j1 c1 j' c' Hts Hj1 Hc1 H A).
Qed.

Lemma free_tokens depth : forall outer c ts c' r, no_literal ts -> held_cache c = [] -> parse_tokens io tf depth c ts = Ok (c', r) -> clean c' ->
  d_parse_tokens io tf depth outer c ts = Ok (c', r) /\ held_cache c' = [] /\ held_result r = [].
Proof.
  induction depth as [|d IH]; intros outer c ts c' r Hn Hc H A; [discriminate|]. cbn [parse_tokens d_parse_tokens] in *. unfold parse_tokens_with in H.
  destruct (push_all _ _ c ts) as [[j c1]| |] eqn:E; cbn [obind] in H; try discriminate. injection H as <- <-.
  assert (L : forall o c m c' x, held_cache c = [] -> import_with io tf (parse_tokens io tf d) c m = Ok (c', x) -> clean c' ->
     d_import_with io tf (d_parse_tokens io tf d o) o c m = Ok (c', x) /\ held_cache c' = [] /\ match x with inl a => held a = [] | inr _ => True end).
  { clear - IH. intros o c m c' x Hc H A. unfold import_with, d_import_with in *. set (p := path_concat _ m) in *.
    destruct (bt_get (cx_complete c) p) as [a|] eqn:Eg; [injection H as <- <-; split; [reflexivity|]; split; [exact Hc|exact (held_get_nil _ _ _ Hc Eg)]|].
    destruct (bs_contains _ p); [injection H as <- <-; auto|].
    destruct (io p) as [text|] eqn:Ep; [|injection H as <- <-; auto].
    destruct (tokenize tf text) as [ts| |] eqn:Et; cbn [obind] in *; try discriminate.
    destruct (parse_tokens io tf d (cx_reading c p) ts) as [[c2 y]| |] eqn:Es; cbn [obind] in H; try discriminate.
    assert (E2 : cx_log c2 = cx_log c') by (destruct y as [[dt v]|e]; injection H as <- _; reflexivity).
    assert (A2 : clean c2) by (intros q Hq; apply A; rewrite <- E2; exact Hq).
    assert (Hp : In p (cx_log c2)) by (apply (grows_in _ _ _ (tokens_grows io tf d _ _ _ _ Es)); cbn; apply in_or_app; right; left; reflexivity).
    destruct (IH o (cx_reading c p) _ _ _ (A2 p Hp text ts Ep Et) Hc Es A2) as (-> & Q1 & Q2). cbn [obind].
    destruct y as [[dt v]|e]; injection H as <- <-; [|auto]. cbn [held_result] in Q2.
    rewrite Q1. cbn [kept forallb]. split; [reflexivity|]. split; [|exact Q2]. unfold held_cache. cbn [cx_loaded cx_complete]. apply held_insert_nil; assumption. }
  rewrite name_plain by exact Hn. unfold d_tokens_with.
  destruct (free_all (fun o => d_import_with io tf (d_parse_tokens io tf d o) o) _ (import_grows io tf _ (tokens_grows io tf d)) L outer ts (root QInitial any_default true) c j c1 Hn eq_refl Hc E A) as (-> & Hj & Hc1).
  cbn [obind]. rewrite Hj. cbn [kept forallb]. split; [reflexivity|]. split; [exact Hc1|]. destruct j; cbn [json_end held_result held_json] in *; auto.
Qed.
End Free.

(** * A parse that releases nothing and holds nothing at the end has read no bigint literal *)
Section Kept.
Variable io : list Z -> option (list Z).
Variable tf : nat.
Definition reads_clean (c c' : context) : Prop := exists l, cx_log c' = cx_log c ++ l /\ Forall (no_literal_in io tf) l.
Lemma reads_refl c c' : cx_log c' = cx_log c -> reads_clean c c'.
Proof. intros E. exists []. rewrite app_nil_r. auto. Qed.
Lemma reads_trans a b c : reads_clean a b -> reads_clean b c -> reads_clean a c.
Proof. intros (l & E & F) (l' & E' & F'). exists (l ++ l'). rewrite E', E, app_assoc. split; [reflexivity|]. apply Forall_app; auto. Qed.

Lemma kept_all (load : list block -> loader) (load' : loader) :
  (forall c m c' x, load [] c m = Ok (c', x) -> held_cache c' = [] -> load' c m = Ok (c', x) /\ ((exists a, x = inl a) -> reads_clean c c')) ->
  forall ts f i j c j' c', d_push_all load [] j c (name_tokens f i ts) = Ok (j', c') -> held_json j' = [] -> held_cache c' = [] ->
  push_all load' j c ts = Ok (j', c') /\ (is_error j' = false -> no_literal ts /\ reads_clean c c').
Proof.
  intros Hl. induction ts as [|t ts IH]; intros f i j c j' c' H Hj Hc.
  - cbn [name_tokens d_push_all] in H. injection H as <- <-. split; [reflexivity|]. intros _. split; [intros b []|apply reads_refl; reflexivity].
  - assert (G : exists t' i', name_tokens f i (t :: ts) = t' :: name_tokens f i' ts /\ (is_bigint t = false -> t' = t) /\ forall b, t = TBigInt b -> exists b', t' = TBigInt b').
    { destruct t; cbn [name_tokens]; eexists; eexists; (split; [reflexivity|]); split; try reflexivity; try discriminate. intros b0 _. eauto. }
    destruct G as (t' & i' & E & P1 & P2). rewrite E in H. cbn [d_push_all] in H.
    destruct (d_push load [] j c t') as [[j1 c1]| |] eqn:Ed; cbn [obind] in H; try discriminate.
    destruct (d_all_nil _ _ _ _ _ _ H Hj Hc) as [Hj1 Hc1]. destruct (d_push_incl _ _ _ _ _ _ _ Ed) as [I Ec]. rewrite Hj1, Hc1 in I.
    apply incl_nil_eq, app_eq_nil in I. destruct I as [Hj0 Hc0]. rewrite Hj0 in Ec. cbn [app] in Ec.
    destruct (IH f i' j1 c1 j' c' H Hj Hc) as [IH1 IH2]. cbn [push_all].
    assert (Err : is_error j' = false -> is_error j1 = false).
    { destruct j1; try reflexivity. rewrite (d_error _ _ _ _ _ _ _ H). auto. }
    destruct (is_bigint t) eqn:Et.
    + destruct t; try discriminate Et. destruct (P2 b eq_refl) as [b' ->]. destruct (push_bigint _ _ _ _ _ _ Ec) as [Hin|(e & -> & F)]; [rewrite Hj1 in Hin; destruct Hin|].
      rewrite F. cbn [obind]. split; [exact IH1|]. intros He. discriminate (Err He).
    + rewrite (P1 eq_refl) in Ec.
      assert (S : cx_push load' j c t = Ok (j1, c1) /\ (is_error j1 = false -> reads_clean c c1)).
      { destruct (push_asks _ _ _ _ _ _ Ec) as [((n & ->) & S)|(n & m & x & L & Er & S)]; [split; [apply S|intros _; apply reads_refl; reflexivity]|].
        destruct (Hl _ _ _ _ L Hc1) as [L1 L2]. split; [apply S; exact L1|]. intros He. destruct x as [a|e]; [|rewrite (Er e eq_refl) in He; discriminate].
        destruct (L2 (ex_intro _ a eq_refl)) as (l & El & Fl). exists l. split; [exact El|exact Fl]. }
      destruct S as [-> R]. cbn [obind]. split; [exact IH1|]. intros He. destruct (IH2 He) as [N1 N2]. split; [|exact (reads_trans _ _ _ (R (Err He)) N2)].
      intros b [Hb|Hb]; [subst t; discriminate Et|exact (N1 b Hb)].
Qed.

Lemma kept_tokens depth : forall c ts c' r, d_parse_tokens io tf depth [] c ts = Ok (c', r) -> held_cache c' = [] -> held_result r = [] ->
  parse_tokens io tf depth c ts = Ok (c', r) /\ ((exists dv, r = inl dv) -> no_literal ts /\ reads_clean c c').
Proof.
  induction depth as [|d IH]; intros c ts c' r H Hc Hr; [discriminate|]. cbn [d_parse_tokens parse_tokens] in *. unfold d_tokens_with in H.
  destruct (d_push_all _ _ _ _ _) as [[j c1]| |] eqn:E; cbn [obind] in H; try discriminate. destruct (kept _ _) eqn:K; [|discriminate]. injection H as <- <-.
  apply kept_incl in K. rewrite Hr, Hc in K. apply incl_nil_eq in K.
  assert (L : forall c m c' x, d_import_with io tf (d_parse_tokens io tf d []) [] c m = Ok (c', x) -> held_cache c' = [] ->
    import_with io tf (parse_tokens io tf d) c m = Ok (c', x) /\ ((exists a, x = inl a) -> reads_clean c c')).
  { clear - IH. intros c m c' x H Hc. unfold import_with, d_import_with in *. set (p := path_concat _ m) in *.
    destruct (bt_get (cx_complete c) p) as [a|] eqn:Eg; [injection H as <- <-; split; [reflexivity|]; intros _; apply reads_refl; reflexivity|].
    destruct (bs_contains _ p); [injection H as <- <-; split; [reflexivity|]; intros [a Ha]; discriminate|].
    destruct (io p) as [text|] eqn:Ep; [|injection H as <- <-; split; [reflexivity|]; intros [a Ha]; discriminate].
    destruct (tokenize tf text) as [ts| |] eqn:Et; cbn [obind] in *; try discriminate.
    destruct (d_parse_tokens io tf d [] (cx_reading c p) ts) as [[c2 y]| |] eqn:Es; cbn [obind] in H; try discriminate.
    destruct y as [[dt v]|e].
    - destruct (kept _ _) eqn:K; [|discriminate]. injection H as <- <-. apply kept_incl in K. rewrite Hc in K. apply incl_nil_eq in K.
      assert (Hv : held v = []) by (apply incl_nil_eq; rewrite <- Hc; unfold held_cache; cbn [cx_loaded cx_complete]; apply held_insert).
      destruct (IH _ _ _ _ Es K Hv) as [-> N]. cbn [obind]. split; [reflexivity|]. intros _. destruct (N (ex_intro _ _ eq_refl)) as (N1 & l & El & Fl).
      exists (p :: l). cbn [cx_loaded cx_log] in *. rewrite El. cbn [cx_reading cx_log]. rewrite <- app_assoc. split; [reflexivity|]. constructor; [|exact Fl].
      intros text' ts' E1 E2. assert (ts' = ts) by congruence. subst ts'. exact N1.
    - injection H as <- <-. destruct (IH _ _ _ _ Es Hc eq_refl) as [-> _]. cbn [obind]. split; [reflexivity|]. intros [a Ha]; discriminate. }
  destruct (kept_all (fun o => d_import_with io tf (d_parse_tokens io tf d o) o) _ L _ _ _ _ _ _ _ E K Hc) as [P N].
  unfold parse_tokens_with. rewrite P. cbn [obind]. split; [reflexivity|]. intros [dv Hdv]. apply N. destruct j; try reflexivity; discriminate.
Qed.
End Kept.

Lemma kept_parse io tf depth R c r : d_parse io tf depth (fresh R 0) = Ok (c, r) -> held_cache c = [] -> held_result r = [] ->
  parse io tf depth (fresh R 0) = Ok (c, r) /\ ((exists dv, r = inl dv) -> forall p, In p (cx_log c) -> no_literal_in io tf p).
Proof.
  unfold d_parse, parse. cbn [fresh cx_path]. intros H Hc Hr. destruct (io R) as [text|] eqn:Ei; [|injection H as <- <-; split; [reflexivity|]; intros [dv E]; discriminate].
  destruct (tokenize tf text) as [ts| |] eqn:Et; cbn [obind] in *; try discriminate.
  destruct (kept_tokens io tf depth _ _ _ _ H Hc Hr) as [P N]. split; [exact P|]. intros Hi. destruct (N Hi) as (N1 & l & El & Fl). intros p Hp. rewrite El in Hp.
  apply in_app_or in Hp. destruct Hp as [Hp|Hp]; [|rewrite Forall_forall in Fl; exact (Fl p Hp)]. cbn in Hp. destruct Hp as [<-|[]].
  intros text' ts' E1 E2. assert (ts' = ts) by congruence. subst ts'. exact N1.
Qed.
Lemma free_parse io tf depth R c r : parse io tf depth (fresh R 0) = Ok (c, r) -> (forall p, In p (cx_log c) -> no_literal_in io tf p) ->
  d_parse io tf depth (fresh R 0) = Ok (c, r) /\ held_cache c = [] /\ held_result r = [].
Proof.
  unfold d_parse, parse. cbn [fresh cx_path]. intros H A. destruct (io R) as [text|] eqn:Ei; [|injection H as <- <-; auto].
  destruct (tokenize tf text) as [ts| |] eqn:Et; cbn [obind] in *; try discriminate.
  assert (HR : In R (cx_log c)) by (apply (grows_in _ _ _ (tokens_grows io tf depth _ _ _ _ H)); left; reflexivity).
  exact (free_tokens io tf depth [] (cx_reading (fresh R 0) R) ts c r (A R HR text ts Ei Et) eq_refl H A).
Qed.

(** * The converter *)

(** Whatever the converter returns, it is what the model without drops returns: drops add panics
    and change nothing else. *)
Theorem C98_agrees : forall show peek disk tf depth cfuel args io r io',
  d_run show peek disk tf depth cfuel args io = (Ok r, io') -> app_run show peek disk tf depth cfuel args io = Ok (r, io').
Proof.
  intros show peek disk tf depth cfuel args io r io'. unfold d_run, app_run. destruct args as [|prog [|input [|output rest]]]; try discriminate.
  destruct (file_to_data_type output) as [dt|]; [|intros [= <- <-]; reflexivity].
  change {| cx_next := 0; cx_path := input; cx_complete := []; cx_progress := []; cx_log := [] |} with (fresh input 0).
  destruct (d_parse io tf depth (fresh input 0)) as [[c [[d v]|e]]| |] eqn:E; try discriminate.
  - destruct (d_serialize show peek cfuel dt v) as [s| |] eqn:Es; try discriminate. destruct (kept (held v) (held_cache c)) eqn:K; try discriminate.
    destruct (write_out disk io output s) as [[r' io1]| |] eqn:Ew; try discriminate. unfold at_end. destruct (held_cache c) eqn:Hc; try discriminate. intros [= <- <-].
    apply kept_incl, incl_nil_eq in K. destruct (kept_parse _ _ _ _ _ _ E Hc K) as [-> _]. cbn [obind].
    destruct dt; cbn [d_serialize] in Es; try discriminate; rewrite Es; cbn [obind]; exact Ew.
  - unfold at_end. destruct (held_cache c) eqn:Hc; try discriminate. intros [= <- <-]. destruct (kept_parse _ _ _ _ _ _ E Hc eq_refl) as [-> _]. reflexivity.
Qed.
Print Assumptions C98_agrees.

(** It returns without a parse error exactly when the model without drops does and none of the files
    that were read has a bigint literal anywhere. *)
Theorem C98_exact : forall show peek disk tf depth cfuel prog input output rest io r io',
  r = None \/ r = Some WriteFailed ->
  (d_run show peek disk tf depth cfuel (prog :: input :: output :: rest) io = (Ok r, io') <->
   app_run show peek disk tf depth cfuel (prog :: input :: output :: rest) io = Ok (r, io') /\
   forall c x p text ts b, parse io tf depth (fresh input 0) = Ok (c, x) -> In p (cx_log c) -> io p = Some text -> tokenize tf text = Ok ts -> ~ In (TBigInt b) ts).
Proof.
  intros show peek disk tf depth cfuel prog input output rest io r io' Hr. split.
  - intros H. split; [exact (C98_agrees _ _ _ _ _ _ _ _ _ _ H)|]. intros c0 x p text ts b Hp Hin Hio Ht. unfold d_run in H.
    destruct (file_to_data_type output) as [dt|]; [|destruct Hr; subst r; discriminate].
    change {| cx_next := 0; cx_path := input; cx_complete := []; cx_progress := []; cx_log := [] |} with (fresh input 0) in H.
    destruct (d_parse io tf depth (fresh input 0)) as [[c [[d v]|e]]| |] eqn:E; try discriminate.
    + destruct (d_serialize show peek cfuel dt v) as [s| |]; try discriminate. destruct (kept (held v) (held_cache c)) eqn:K; try discriminate.
      destruct (write_out disk io output s) as [[r' io1]| |]; try discriminate. unfold at_end in H. destruct (held_cache c) eqn:Hc; try discriminate.
      apply kept_incl, incl_nil_eq in K. destruct (kept_parse _ _ _ _ _ _ E Hc K) as [E2 N]. rewrite Hp in E2. injection E2 as -> ->.
      exact (N (ex_intro _ _ eq_refl) p Hin text ts Hio Ht b).
    + unfold at_end in H. destruct (held_cache c); [|discriminate]. destruct Hr; subst r; discriminate.
  - intros [H N]. unfold app_run in H. unfold d_run. destruct (file_to_data_type output) as [dt|]; [|injection H as <- <-; reflexivity].
    change {| cx_next := 0; cx_path := input; cx_complete := []; cx_progress := []; cx_log := [] |} with (fresh input 0) in *.
    destruct (parse io tf depth (fresh input 0)) as [[c x]| |] eqn:E; cbn [obind] in H; try discriminate.
    destruct (free_parse io tf depth input c x E) as (-> & Hc & Hx); [intros p Hp text ts E1 E2 b; exact (N c x p text ts b eq_refl Hp E1 E2)|].
    destruct x as [[d v]|e]; [|injection H as <- <-; destruct Hr; discriminate]. cbn [held_result] in Hx. rewrite Hx, Hc. cbn [kept forallb at_end].
    destruct dt; cbn [d_serialize]; try discriminate;
      [destruct (to_json show v) as [s| |]|destruct (to_djs show peek cfuel v true) as [s| |]|destruct (to_djs show peek cfuel v false) as [s| |]]; cbn [obind] in H; try discriminate; rewrite H; reflexivity.
Qed.
Print Assumptions C98_exact.

(** Errors are reported as well if no file that was read has a bigint literal. *)
Theorem C98_errors : forall show peek disk tf depth cfuel prog input output rest io e io',
  app_run show peek disk tf depth cfuel (prog :: input :: output :: rest) io = Ok (Some (ParseFailed e), io') ->
  (forall c x p text ts b, parse io tf depth (fresh input 0) = Ok (c, x) -> In p (cx_log c) -> io p = Some text -> tokenize tf text = Ok ts -> ~ In (TBigInt b) ts) ->
  d_run show peek disk tf depth cfuel (prog :: input :: output :: rest) io = (Ok (Some (ParseFailed e)), io').
Proof.
  intros show peek disk tf depth cfuel prog input output rest io e io' H N. unfold app_run in H. unfold d_run. destruct (file_to_data_type output) as [dt|]; [|discriminate].
  change {| cx_next := 0; cx_path := input; cx_complete := []; cx_progress := []; cx_log := [] |} with (fresh input 0) in *.
  destruct (parse io tf depth (fresh input 0)) as [[c x]| |] eqn:E; cbn [obind] in H; try discriminate.
  destruct (free_parse io tf depth input c x E) as (-> & Hc & Hx); [intros p Hp text ts E1 E2 b; exact (N c x p text ts b eq_refl Hp E1 E2)|].
  destruct x as [[d v]|e']; [|injection H as <- <-; rewrite Hc; reflexivity].
  assert (W : forall s, write_out disk io output s <> Ok (Some (ParseFailed e), io')) by (intros s; unfold write_out; destruct (disk output s); discriminate).
  destruct dt; try discriminate;
    [destruct (to_json show v) as [s| |]|destruct (to_djs show peek cfuel v true) as [s| |]|destruct (to_djs show peek cfuel v false) as [s| |]]; cbn [obind] in H; try discriminate; destruct (W s H).
Qed.
Print Assumptions C98_errors.

(** * Panics *)
Lemma any_same (load load' : loader) s c t : (forall m, load c m = load' c m) -> cx_any_parse load s c t = cx_any_parse load' s c t.
Proof. intros H. unfold cx_any_parse. destruct (as_status s); try reflexivity. destruct t; try reflexivity. rewrite H. reflexivity. Qed.
Lemma push_same (load load' : loader) j c t : (forall n m, load (cx_set_next c n) m = load' (cx_set_next c n) m) -> cx_push load j c t = cx_push load' j c t.
Proof.
  intros H. assert (A : forall s, cx_any_parse load s c t = cx_any_parse load' s c t).
  { intros s. apply any_same. intros m. rewrite <- (set_next_same c). apply H. }
  assert (R : forall r, cx_root_parse load r c t = cx_root_parse load' r c t).
  { intros r. unfold cx_root_parse. destruct (root_parse r (cx_next c) t) as [[[j1 [[id m]|]] n1]| |]; cbn [obind]; try reflexivity. destruct j1; try reflexivity. rewrite H. reflexivity. }
  unfold cx_push. destruct j as [r|k s|s|d v|e]; destruct t; try reflexivity; try apply R; unfold cx_const_parse, cx_module_parse; rewrite ?A; reflexivity.
Qed.

Section Same.
Variable io : list Z -> option (list Z).
Variable tf : nat.
Hypothesis Hio : forall p, no_literal_in io tf p.

Lemma same_all (load : list block -> loader) (load' : loader) outer :
  (forall o c m, held_cache c = [] -> load o c m = load' c m) ->
  (forall c m c' x, held_cache c = [] -> load' c m = Ok (c', x) -> held_cache c' = [] /\ match x with inl a => held a = [] | inr _ => True end) ->
  forall ts j c, no_literal ts -> held_json j = [] -> held_cache c = [] -> d_push_all load outer j c ts = push_all load' j c ts /\
    forall j' c', push_all load' j c ts = Ok (j', c') -> held_json j' = [] /\ held_cache c' = [].
Proof.
  intros Hl Hq. induction ts as [|t ts IH]; intros j c Hn Hj Hc; cbn [d_push_all push_all]; [split; [reflexivity|]; intros j' c' [= <- <-]; auto|].
  destruct (no_literal_cons _ _ Hn) as [Ht Hts]. unfold d_push.
  rewrite (push_same (load (held_json j ++ outer)) load' j c t) by (intros n m; apply Hl; exact Hc).
  destruct (cx_push load' j c t) as [[j1 c1]| |] eqn:E; cbn [obind]; [|split; [reflexivity|discriminate]|split; [reflexivity|discriminate]].
  assert (Q : quiet_load load' c c1) by (intros n m r L; exact (Hq (cx_set_next c n) m c1 r Hc L)).
  destruct (push_nil _ _ _ _ _ _ Ht Hj Hc Q E) as [Hj1 Hc1]. rewrite Hj, Hc. cbn [app kept forallb obind]. apply IH; assumption.
Qed.

Lemma same_tokens depth : forall outer c ts, no_literal ts -> held_cache c = [] -> d_parse_tokens io tf depth outer c ts = parse_tokens io tf depth c ts /\
  forall c' r, parse_tokens io tf depth c ts = Ok (c', r) -> held_cache c' = [] /\ held_result r = [].
Proof.
  induction depth as [|d IH]; intros outer c ts Hn Hc; [split; [reflexivity|discriminate]|]. cbn [d_parse_tokens parse_tokens]. rewrite name_plain by exact Hn.
  assert (L : forall o c m, held_cache c = [] -> d_import_with io tf (d_parse_tokens io tf d o) o c m = import_with io tf (parse_tokens io tf d) c m /\
    forall c' x, import_with io tf (parse_tokens io tf d) c m = Ok (c', x) -> held_cache c' = [] /\ match x with inl a => held a = [] | inr _ => True end).
  { clear - IH Hio. intros o c m Hc. unfold import_with, d_import_with. set (p := path_concat _ m).
    destruct (bt_get (cx_complete c) p) as [a|] eqn:Eg; [split; [reflexivity|]; intros c' x [= <- <-]; split; [exact Hc|exact (held_get_nil _ _ _ Hc Eg)]|].
    destruct (bs_contains _ p); [split; [reflexivity|]; intros c' x [= <- <-]; auto|].
    destruct (io p) as [text|] eqn:Ep; [|split; [reflexivity|]; intros c' x [= <- <-]; auto].
    destruct (tokenize tf text) as [ts| |] eqn:Et; cbn [obind]; [|split; [reflexivity|discriminate]|split; [reflexivity|discriminate]].
    destruct (IH o (cx_reading c p) ts (Hio p text ts Ep Et) Hc) as [-> Q].
    destruct (parse_tokens io tf d (cx_reading c p) ts) as [[c2 y]| |]; cbn [obind]; [|split; [reflexivity|discriminate]|split; [reflexivity|discriminate]].
    destruct (Q _ _ eq_refl) as [Q1 Q2]. destruct y as [[dt v]|e]; [|split; [reflexivity|]; intros c' x [= <- <-]; auto]. cbn [held_result] in Q2.
    rewrite Q1. cbn [kept forallb]. split; [reflexivity|]. intros c' x [= <- <-]. split; [|exact Q2]. unfold held_cache. cbn [cx_loaded cx_complete]. apply held_insert_nil; assumption. }
  unfold d_tokens_with, parse_tokens_with.
  destruct (same_all (fun o => d_import_with io tf (d_parse_tokens io tf d o) o) (import_with io tf (parse_tokens io tf d)) outer) with (ts := ts) (j := root QInitial any_default true) (c := c) as [E Q];
    [intros o c0 m H0; exact (proj1 (L o c0 m H0))|intros c0 m c' x H0; exact (proj2 (L [] c0 m H0) c' x)|exact Hn|reflexivity|exact Hc|].
  rewrite E. destruct (push_all _ _ c ts) as [[j c1]| |]; cbn [obind]; [|split; [reflexivity|discriminate]|split; [reflexivity|discriminate]].
  destruct (Q _ _ eq_refl) as [Hj Hc1]. rewrite Hj. cbn [kept forallb]. split; [reflexivity|]. intros c' r [= <- <-]. split; [exact Hc1|].
  destruct j; cbn [json_end held_result held_json] in *; auto.
Qed.
End Same.

(** If no file has a bigint literal, the converter ends in the same way as without drops, panics
    included.  So every panic is one of those listed in C70, or there is a bigint literal. *)
Theorem C98_panics : forall show peek disk tf depth cfuel args io,
  (forall p text ts b, io p = Some text -> tokenize tf text = Ok ts -> ~ In (TBigInt b) ts) ->
  d_run show peek disk tf depth cfuel args io =
  match app_run show peek disk tf depth cfuel args io with Ok (r, io') => (Ok r, io') | Panic => (Panic, io) | NoFuel => (NoFuel, io) end.
Proof.
  intros show peek disk tf depth cfuel args io Hio. unfold d_run, app_run. destruct args as [|prog [|input [|output rest]]]; try reflexivity.
  destruct (file_to_data_type output) as [dt|]; [|reflexivity]. set (c0 := {| cx_next := 0; cx_path := input; cx_complete := []; cx_progress := []; cx_log := [] |}).
  assert (E : d_parse io tf depth c0 = parse io tf depth c0 /\ forall c r, parse io tf depth c0 = Ok (c, r) -> held_cache c = [] /\ held_result r = []).
  { unfold d_parse, parse. cbn [c0 cx_path]. destruct (io input) as [text|] eqn:Ei; [|split; [reflexivity|]; intros c r [= <- <-]; auto].
    destruct (tokenize tf text) as [ts| |] eqn:Et; cbn [obind]; [|split; [reflexivity|discriminate]|split; [reflexivity|discriminate]].
    apply same_tokens; [intros p t l E1 E2 b; exact (Hio p t l b E1 E2)|intros b; exact (Hio input text ts b Ei Et)|reflexivity]. }
  destruct E as [-> Q]. destruct (parse io tf depth c0) as [[c [[d v]|e]]| |]; cbn [obind]; try reflexivity; destruct (Q _ _ eq_refl) as [Q1 Q2]; rewrite Q1; [|reflexivity].
  cbn [held_result] in Q2. rewrite Q2. cbn [kept forallb at_end].
  destruct dt; cbn [d_serialize]; try reflexivity; [destruct (to_json show v) as [s| |]|destruct (to_djs show peek cfuel v true) as [s| |]|destruct (to_djs show peek cfuel v false) as [s| |]];
    cbn [obind stop]; try reflexivity; unfold write_out; destruct (disk output s); reflexivity.
Qed.
Print Assumptions C98_panics.

(** A module with a constant that is a bigint and that it does not use is valid, and the value does
    not contain it; the parser panics when it drops the constant. *)
Theorem C98_unused_refuted : forall io tf depth R text k b x, (0 < depth)%nat -> io R = Some text ->
  tokenize tf text = Ok [TId (txt "const"); TId k; TEquals; TBigInt b; TNewLine; TId (txt "export"); TId (txt "default"); TNumber x] ->
  (exists c, parse io tf depth (fresh R 0) = Ok (c, inl (Mjs, ANumber x))) /\ d_parse io tf depth (fresh R 0) = Panic.
Proof.
  intros io tf depth R text k b x Hd Hio Ht. destruct depth as [|d]; [lia|]. unfold parse, d_parse. cbn [fresh cx_path]. rewrite Hio, Ht. cbn [obind].
  split; [eexists; cbn; reflexivity|cbn; reflexivity].
Qed.
Print Assumptions C98_unused_refuted.

(** An array that is broken off after a bigint should be reported as an error; the parser panics. *)
Theorem C98_error_refuted : forall io tf depth R text b, (0 < depth)%nat -> io R = Some text ->
  (exists t, tokenize tf text = Ok [TArrayBegin; TBigInt b; t] /\ t <> TComma /\ t <> TArrayEnd) \/ tokenize tf text = Ok [TArrayBegin; TBigInt b] ->
  (exists c e, parse io tf depth (fresh R 0) = Ok (c, inr e)) /\ d_parse io tf depth (fresh R 0) = Panic.
Proof.
  intros io tf depth R text b Hd Hio Ht. destruct depth as [|d]; [lia|]. unfold parse, d_parse. cbn [fresh cx_path]. rewrite Hio.
  destruct Ht as [(t & -> & H1 & H2)| ->]; cbn [obind]; [|split; [eexists; eexists; cbn; reflexivity|cbn; reflexivity]].
  destruct t; try congruence; (split; [eexists; eexists; cbn; reflexivity|cbn; reflexivity]).
Qed.
Print Assumptions C98_error_refuted.

(** An object that repeats a key is valid and has the last value; if the earlier value is a bigint,
    the parser panics when it drops it, also when the later one is a bigint as well. *)
Theorem C98_repeated_refuted : forall io tf depth R text k b t, (0 < depth)%nat -> io R = Some text ->
  (exists x, t = TNumber x) \/ (exists b', t = TBigInt b') ->
  tokenize tf text = Ok [TObjectBegin; TString k; TColon; TBigInt b; TComma; TString k; TColon; t; TObjectEnd] ->
  (exists c v, parse io tf depth (fresh R 0) = Ok (c, inl (Json, v))) /\ d_parse io tf depth (fresh R 0) = Panic.
Proof.
  intros io tf depth R text k b t Hd Hio Hx Ht. destruct depth as [|d]; [lia|]. unfold parse, d_parse. cbn [fresh cx_path]. rewrite Hio, Ht. cbn [obind].
  destruct Hx as [[x ->]|[b' ->]]; (split; [eexists; eexists; cbn; reflexivity|cbn [d_parse_tokens]; unfold d_tokens_with; cbn -[str_cmp]; rewrite !BTreeProofs.str_cmp_refl; reflexivity]).
Qed.
Print Assumptions C98_repeated_refuted.

(** The panic may come after the output has been written: here the bigint is in the module cache. *)
Theorem C98_written_refuted : exists args io io', d_run show_two first_key good_disk 100 2 9 args io = (Panic, io') /\
  app_run show_two first_key good_disk 100 2 9 args io = Ok (None, io') /\ io' (txt "out.json") = Some (txt "null").
Proof.
  exists [txt "nanvm"; txt "m"; txt "out.json"], (files [("m", "import k from ""n""
export default null"); ("n", "export default 5n")]%string). eexists. split; [vm_compute; reflexivity|]. split; [vm_compute; reflexivity|]. vm_compute. reflexivity.
Qed.
Print Assumptions C98_written_refuted.

(** The parser of a file panics in one of these cases only: the text ends unexpectedly while bigints
    are held; a token makes the parser without drops panic (C45), or the import that it asks for
    panics; or the step drops a bigint in one of the four ways of [drops].  In particular an import
    that succeeds, the end of an array, of an object or of a statement, and a new line drop none. *)
Theorem C98_causes : forall io tf depth outer c ts,
  d_parse_tokens io tf (S depth) outer c ts = Panic ->
  let load := fun o => d_import_with io tf (d_parse_tokens io tf depth o) o in
  let start := root QInitial any_default true in
  let ts' := name_tokens (Z.of_nat (List.length (cx_log c))) 0 ts in
  (exists j c1, d_push_all load outer start c ts' = Ok (j, c1) /\ json_end j = inr UnexpectedEnd /\ held_json j <> []) \/
  exists before t after j1 c1, ts' = before ++ t :: after /\ d_push_all load outer start c before = Ok (j1, c1) /\
    (cx_push (load (held_json j1 ++ outer)) j1 c1 t = Panic \/
     exists j2 c2, cx_push (load (held_json j1 ++ outer)) j1 c1 t = Ok (j2, c2) /\ drops j1 j2).
Proof. intros io tf depth outer c ts H. exact (d_tokens_causes _ _ _ _ (d_import_keeps io tf depth) H). Qed.
Print Assumptions C98_causes.

(** Drops and block names add nothing but panics, also to texts with bigints: when the parser with
    drops returns, the parser without drops returns the same value or error, the same files have
    been read, and the cache has the same values. *)
Theorem C98_parse : forall io tf depth R n c r,
  d_parse io tf depth (fresh R n) = Ok (c, r) -> parse io tf depth (fresh R n) = Ok (u_cx c, u_end r).
Proof. intros io tf depth R n c r H. pose proof (d_parse_follows io tf depth (fresh R n)) as F. rewrite H in F. exact F. Qed.
Print Assumptions C98_parse.

(** A text without identifiers other than [null], [true] and [false] (so without constants, imports
    and exports) in which no string occurs twice keeps its bigints: if it is valid, the parser with
    drops returns the same value. *)
Theorem C98_kept_partial : forall io tf depth R n text ts c d v, io R = Some text -> tokenize tf text = Ok ts ->
  (forall i, In (TId i) ts -> i = txt "null" \/ i = txt "true" \/ i = txt "false") -> NoDup (strings ts) ->
  parse io tf depth (fresh R n) = Ok (c, inl (d, v)) ->
  exists c' v', d_parse io tf depth (fresh R n) = Ok (c', inl (d, v')) /\ u_cx c' = c /\ u_any v' = v.
Proof.
  intros io tf depth R n text ts c d v Hio Ht Hi Hd. unfold parse, d_parse. cbn [fresh cx_path]. rewrite Hio, Ht. cbn [obind].
  destruct depth as [|depth]; [discriminate|]. cbn [parse_tokens d_parse_tokens]. unfold parse_tokens_with, d_tokens_with.
  set (c0 := cx_reading _ R). set (ts' := name_tokens _ 0 ts). set (start := root QInitial any_default true).
  assert (Hi' : forallb (fun t => negb (is_id t)) ts = true) by (apply forallb_forall; intros t Hin; destruct t; try reflexivity; destruct (Hi s Hin) as [->|[->| ->]]; reflexivity).
  assert (T0 : tidy_json [] start) by (split; [reflexivity|]; split; [reflexivity|]; split; [reflexivity|]; split; [exact I|]; split; [constructor|]; split; [apply not_importing; discriminate|discriminate]).
  assert (S0 : settled_json start) by (repeat split).
  destruct (push_all _ start c0 ts) as [[j c1]| |] eqn:E; cbn [obind]; try discriminate.
  intros [= -> Hj]. destruct j as [r|k s|s|d' v'|e]; try discriminate. injection Hj as -> ->.
  set (none := (fun _ _ => Panic) : loader).
  assert (E1 : push_all none start c0 ts = Ok (PResult d v, c)) by (eapply all_tidy_load with (seen := []); [exact Hi'|exact Hd|intros k _ []|exact S0|exact T0|exact E]).
  assert (E2 : exists v1 c1, push_all none start c0 ts' = Ok (PResult d v1, c1) /\ u_cx c1 = c /\ u_any v1 = v).
  { pose proof (u_push_all true none none (fun _ _ _ => eq_refl) ts' start c0) as F. unfold ts' in F. rewrite u_named in F. fold ts' in F.
    change (u_json start) with start in F. change (u_cx c0) with c0 in F. rewrite E1 in F. destruct (push_all none start c0 ts') as [[j1 c1]| |]; cbn in F.
    - injection F as Fj Fc. destruct j1; try discriminate. injection Fj as -> ->. eauto.
    - discriminate (F eq_refl).
    - discriminate (F eq_refl). }
  destruct E2 as (v1 & c1 & E2 & Hc & Hv).
  assert (A : d_push_all (fun o => d_import_with io tf (d_parse_tokens io tf depth o) o) [] start c0 ts' = Ok (PResult d v1, c1)).
  { eapply all_tidy with (seen := []); [| | |exact S0|exact T0|exact E2|discriminate].
    - unfold ts'. rewrite named_ids. exact Hi'.
    - unfold ts'. rewrite named_strings. exact Hd.
    - intros k _ []. }
  exists c1, v1. split; [|auto]. rewrite A. cbn [obind json_end held_json held_result].
  replace (kept _ _) with true; [reflexivity|]. symmetry. apply kept_incl, incl_appl, incl_refl.
Qed.
Print Assumptions C98_kept_partial.

(** A bigint in the value itself is kept by the parser; a repeated key drops the first value. *)
Example C98_case :
  (exists c v, d_parse (files [("m", "[1n,{""a"":2n}]")]%string) 100 1 (fresh (txt "m") 0) = Ok (c, inl (Json, v)) /\ held v = [(1, 0); (1, 1)])
  /\ d_parse (files [("m", "{""a"":1n,""a"":2}")]%string) 100 1 (fresh (txt "m") 0) = Panic
  /\ (exists c, d_parse (files [("m", "const k = 1n
const k = [k]
export default k")]%string) 100 1 (fresh (txt "m") 0) = Ok (c, inl (Mjs, AArray 0 [ABigint {| jb_len := 1; jb_items := [1; 0; 1] |}])))
  /\ fst (d_run show_two first_key good_disk 100 1 9 [txt "nanvm"; txt "m"; txt "out.json"] (files [("m", "[null]")]%string)) = Ok None
  /\ fst (d_run show_two first_key good_disk 100 1 9 [txt "nanvm"; txt "m"; txt "out.json"] (files [("m", "[1n")]%string)) = Panic
  /\ fst (d_run show_two first_key good_disk 100 1 9 [txt "nanvm"; txt "m"; txt "out.json"] (files [("m", "[1,,1n]")]%string)) = Ok (Some (ParseFailed UnexpectedToken)).
Proof.
  split; [eexists; eexists; split; [vm_compute; reflexivity|vm_compute; reflexivity]|].
  split; [vm_compute; reflexivity|]. split; [eexists; vm_compute; reflexivity|]. vmc.
Qed.

(** A text to which [C98_kept_partial] applies, and the four ways to drop. *)
Example C98_case_kept :
  let ts := [TObjectBegin; TString (txt "a"); TColon; TArrayBegin; TBigInt {| jb_len := 1; jb_items := [7] |}; TComma; TId (txt "null"); TArrayEnd; TComma;
             TString (txt ""); TColon; TBigInt {| jb_len := 1; jb_items := [8] |}; TObjectEnd] in
  NoDup (strings ts)
  /\ (exists c v, d_parse_tokens (fun _ => None) 9 1 [] (fresh (txt "m") 0) ts = Ok (c, inl (Json, v)) /\ held v = [(0, 1); (0, 0)])
  /\ (exists j, drops (PModule {| as_type := Json; as_status := SArrayValue; as_current := JStack (StArray [ABigint {| jb_len := 1; jb_items := [0; 0; 7] |}]); as_stack := []; as_consts := [] |}) j)
  /\ repeats {| as_type := Json; as_status := SObjectColon; as_current := JStack (StObject [(txt "a", ABigint {| jb_len := 1; jb_items := [0; 0; 7] |})] (txt "a")); as_stack := []; as_consts := [] |}
  /\ ~ repeats {| as_type := Json; as_status := SObjectColon; as_current := JStack (StObject [(txt "a", ABigint {| jb_len := 1; jb_items := [0; 0; 7] |})] (txt "b")); as_stack := []; as_consts := [] |}.
Proof.
  cbv zeta. split; [cbn; repeat constructor; cbn; intuition discriminate|]. split; [eexists; eexists; split; [vm_compute; reflexivity|vm_compute; reflexivity]|].
  split; [eexists; eapply drop_error with (e := UnexpectedToken); [reflexivity|discriminate]|].
  split; [eexists; eexists; eexists; split; [left; split; reflexivity|split; [vm_compute; reflexivity|discriminate]]|].
  intros (m & k & v & [[_ H]|[st H]] & Hg & _); [|discriminate]. injection H as <- <-. discriminate.
Qed.
