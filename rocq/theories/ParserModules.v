(** Runs of the parser over module graphs: invariants of a run, soundness and completeness
    against the denotation of modules, termination. *)
From Coq Require Import ZArith List Bool String Lia Sorted.
From Verif Require Import Outcome JsBigintModel TokenizerModel TokenizerSpec ValueModel ParserModel ParserSpec BTreeProofs ParserProofs ParserRun.
Import ListNotations.
Open Scope Z_scope.

(** ** Runs with a given loader *)
Definition is_err (j : json_state) : Prop := exists e, j = PError e.

Lemma push_all_err load e c ts : push_all load (PError e) c ts = Ok (PError e, c).
Proof. induction ts as [|t ts IH]; cbn; [reflexivity|]. destruct t; exact IH. Qed.

Section Run.
Variable load : loader.
Variables I E : context -> Prop.
Hypothesis Iset : forall c n, I c -> I (cx_set_next c n).

Lemma run_gen (PP PN : Prop) ts :
  (forall c m, In (TString m) ts -> I c ->
     match load c m with Ok (c', inl a) => I c' | Ok (c', inr e) => E c' | Panic => PP | NoFuel => PN end) ->
  (In TSemicolon ts -> PP) ->
  forall j c, jwf j -> I c ->
  match push_all load j c ts with
  | Ok (j', c') => jwf j' /\ (I c' \/ (is_err j' /\ E c'))
  | Panic => PP
  | NoFuel => PN
  end.
Proof.
  intros Hl Hs. induction ts as [|t ts IH]; intros j c Hw HI; cbn.
  - auto.
  - assert (Hl' : forall c m, In (TString m) ts -> I c ->
      match load c m with Ok (c', inl a) => I c' | Ok (c', inr e) => E c' | Panic => PP | NoFuel => PN end)
      by (intros; apply Hl; [right|]; assumption).
    assert (Hs' : In TSemicolon ts -> PP) by (intros; apply Hs; right; assumption).
    destruct (push_cases (fun _ _ => False) j c t Hw) as [(j' & n' & Hp & Hw' & _)|[(m & K & n' & L & -> & Hp & Hk & _)|(-> & _ & Hp & _)]];
      rewrite Hp; cbn [obind].
    + apply IH; auto.
    + specialize (Hl (cx_set_next c n') m (or_introl eq_refl) (Iset _ _ HI)).
      destruct (load (cx_set_next c n') m) as [[c' [a|e]]| |]; cbn [obind]; [apply IH; auto| |exact Hl|exact Hl].
      rewrite push_all_err. split; [exact Logic.I|]. right. split; [eexists; reflexivity|exact Hl].
    + apply Hs. left. reflexivity.
Qed.

Lemma run_sound (mods : list Z -> tree -> Prop) ts :
  (forall c m c' a, In (TString m) ts -> I c -> load c m = Ok (c', inl a) -> I c' /\ mods m (erase a)) ->
  forall j c j' c' d v, push_all load j c ts = Ok (j', c') -> jwf j -> I c -> json_end j' = inl (d, v) ->
  jres mods j ts d (erase v) /\ I c'.
Proof.
  intros Hl. induction ts as [|t ts IH]; intros j c j' c' d v; cbn.
  - intros [= <- <-] Hw HI He. split; [|exact HI]. apply jres_nil; eauto.
  - assert (Hl' : forall c m c' a, In (TString m) ts -> I c -> load c m = Ok (c', inl a) -> I c' /\ mods m (erase a))
      by (intros; eapply Hl; [right|..]; eassumption).
    intros H Hw HI He.
    destruct (push_cases mods j c t Hw) as [(j1 & n' & Hp & Hw' & Hi)|[(m & K & n' & L & -> & Hp & Hk & HK & Hi)|(-> & _ & Hp & _)]];
      rewrite Hp in H; cbn [obind] in H.
    + destruct (IH Hl' _ _ _ _ _ _ H Hw' (Iset _ _ HI) He) as [H1 H2]. split; [apply Hi, H1|exact H2].
    + destruct (load (cx_set_next c n') m) as [[c1 [a|e]]| |] eqn:El; cbn [obind] in H; try discriminate.
      * destruct (Hl _ _ _ _ (or_introl eq_refl) (Iset _ n' HI) El) as [HI1 Hm].
        destruct (IH Hl' _ _ _ _ _ _ H (Hk a) HI1 He) as [H1 H2]. split; [|exact H2].
        apply Hi. exists (erase a). split; [exact Hm|]. apply HK, H1.
      * rewrite push_all_err in H. injection H as <- <-. discriminate.
    + discriminate.
Qed.

Lemma run_complete (mods : list Z -> tree -> Prop) ts :
  (forall c m t, In (TString m) ts -> I c -> mods m t -> exists c' a, load c m = Ok (c', inl a) /\ erase a = t /\ I c') ->
  forall j c d t, jres mods j ts d t -> jwf j -> I c ->
  exists j' c' v, push_all load j c ts = Ok (j', c') /\ json_end j' = inl (d, v) /\ erase v = t /\ I c'.
Proof.
  intros Hl. induction ts as [|t ts IH]; intros j c d u H Hw HI; cbn [push_all].
  - apply jres_nil in H as (v & He & ->); [|exact Hw]. exists j, c, v. auto.
  - assert (Hl' : forall c m t, In (TString m) ts -> I c -> mods m t -> exists c' a, load c m = Ok (c', inl a) /\ erase a = t /\ I c')
      by (intros; eapply Hl; [right|..]; eassumption).
    destruct (push_cases mods j c t Hw) as [(j1 & n' & Hp & Hw' & Hi)|[(m & K & n' & L & -> & Hp & Hk & HK & Hi)|(-> & _ & Hp & Hi)]];
      rewrite Hp; cbn [obind].
    + apply Hi in H. eapply IH; eauto.
    + apply Hi in H as (w & Hm & HL).
      destruct (Hl (cx_set_next c n') m w (or_introl eq_refl) (Iset _ n' HI) Hm) as (c1 & a & Hload & <- & HI1).
      rewrite Hload. cbn [obind]. apply HK in HL. eapply IH; eauto.
    + exfalso. exact (Hi _ _ _ H).
Qed.
End Run.

(** ** The grammar is unambiguous *)
Fixpoint label (t : tree) : any :=
  match t with
  | VNull => ANull
  | VBool b => ABool b
  | VNumber f => ANumber f
  | VString s => AString s
  | VBigint b => ABigint b
  | VArray l => AArray 0 (map label l)
  | VObject l => AObject 0 (map (fun kv => (fst kv, label (snd kv))) l)
  end.
Lemma erase_label : forall t, erase (label t) = t.
Proof.
  fix IH 1. intros [| | | | |l|l]; try reflexivity; cbn; f_equal; rewrite map_map; cbn.
  - induction l as [|x l IHl]; [reflexivity|]. cbn. rewrite IH, IHl. reflexivity.
  - induction l as [|[k x] l IHl]; [reflexivity|]. cbn. rewrite IH, IHl. reflexivity.
Qed.

Definition start : json_state := root QInitial any_default true.
Definition ctx0 : context := {| cx_next := 0; cx_path := []; cx_complete := []; cx_progress := []; cx_log := [] |}.

Lemma jres_det (mods : list Z -> tree -> Prop) ts :
  (forall m t1 t2, mods m t1 -> mods m t2 -> t1 = t2) ->
  forall j d1 t1 d2 t2, jwf j -> jres mods j ts d1 t1 -> jres mods j ts d2 t2 -> d1 = d2 /\ t1 = t2.
Proof.
  intros Hf. induction ts as [|t ts IH]; intros j d1 t1 d2 t2 Hw H1 H2.
  - apply jres_nil in H1 as (v1 & E1 & ->); [|exact Hw]. apply jres_nil in H2 as (v2 & E2 & ->); [|exact Hw].
    rewrite E1 in E2. injection E2 as -> ->. auto.
  - destruct (push_cases mods j ctx0 t Hw) as [(j1 & n' & Hp & Hw' & Hi)|[(m & K & n' & L & -> & Hp & Hk & HK & Hi)|(-> & _ & Hp & Hi)]].
    + apply Hi in H1, H2. eapply IH; eauto.
    + destruct (proj1 (Hi _ _ _) H1) as (w1 & Hm1 & HL1). destruct (proj1 (Hi _ _ _) H2) as (w2 & Hm2 & HL2).
      rewrite (Hf _ _ _ Hm2 Hm1) in HL2. rewrite <- (erase_label w1) in HL1, HL2. exact (IH (K (label w1)) _ _ _ _ (Hk _) (proj2 (HK _ _ _ _) HL1) (proj2 (HK _ _ _ _) HL2)).
    + exfalso. exact (Hi _ _ _ H1).
Qed.

Lemma start_jres mods ts d t : jres mods start ts d t <-> gmodule mods [] Json true ts d t.
Proof. reflexivity. Qed.
Lemma start_jwf : jwf start.
Proof. repeat split. Qed.

Lemma gmodule_det (mods : list Z -> tree -> Prop) ts d1 t1 d2 t2 :
  (forall m t1 t2, mods m t1 -> mods m t2 -> t1 = t2) ->
  gmodule mods [] Json true ts d1 t1 -> gmodule mods [] Json true ts d2 t2 -> d1 = d2 /\ t1 = t2.
Proof. intros Hf H1 H2. exact (jres_det mods ts Hf start d1 t1 d2 t2 start_jwf H1 H2). Qed.

(** ** The grammar is monotone and continuous in the denotations of modules *)
Lemma gval_mono_all (m1 m2 : list Z -> tree -> Prop) env : (forall m t, m1 m t -> m2 m t) ->
  (forall p d a d' t, gval m1 env p d a d' t -> gval m2 env p d a d' t)
  /\ (forall p d a d' ts, gelems m1 env p d a d' ts -> gelems m2 env p d a d' ts)
  /\ (forall f d a d' kvs, gmembers m1 env f d a d' kvs -> gmembers m2 env f d a d' kvs).
Proof. intros Hm. apply gval_mutind; intros; try (econstructor; eauto; fail). Qed.
Lemma gval_mono (m1 m2 : list Z -> tree -> Prop) env p d a d' t : (forall m t, m1 m t -> m2 m t) ->
  gval m1 env p d a d' t -> gval m2 env p d a d' t.
Proof. intros H. apply (gval_mono_all m1 m2 env H). Qed.
Lemma gfinal_mono (m1 m2 : list Z -> tree -> Prop) env d a d' t : (forall m t, m1 m t -> m2 m t) ->
  gfinal m1 env d a d' t -> gfinal m2 env d a d' t.
Proof. intros H (x & y & n & H1 & H2 & H3). exists x, y, n. split; [exact H1|]. split; [exact H2|]. eapply gval_mono; eassumption. Qed.
Lemma gmodule_mono (m1 m2 : list Z -> tree -> Prop) env d nl a d' t : (forall m t, m1 m t -> m2 m t) ->
  gmodule m1 env d nl a d' t -> gmodule m2 env d nl a d' t.
Proof.
  intros H G. induction G.
  - constructor; assumption.
  - econstructor; [eassumption|eapply gval_mono; eassumption|assumption].
  - econstructor; [assumption|eauto|assumption].
  - constructor; [assumption|eapply gfinal_mono; eassumption].
  - constructor; [assumption|eapply gfinal_mono; eassumption].
  - constructor; [assumption|assumption|eapply gfinal_mono; eassumption].
Qed.

Section Continuity.
Variable M : nat -> list Z -> tree -> Prop.
Hypothesis Mmono : forall n m t, M n m t -> M (S n) m t.
Lemma M_le n n' m t : (n <= n')%nat -> M n m t -> M n' m t.
Proof. induction 1; auto. Qed.
Let U m t := exists n, M n m t.

Lemma gval_cont_all env :
  (forall p d a d' t, gval U env p d a d' t -> exists n, gval (M n) env p d a d' t)
  /\ (forall p d a d' ts, gelems U env p d a d' ts -> exists n, gelems (M n) env p d a d' ts)
  /\ (forall f d a d' kvs, gmembers U env f d a d' kvs -> exists n, gmembers (M n) env f d a d' kvs).
Proof.
  assert (Hle : forall n1 n2, (forall m t, M n1 m t -> M (Nat.max n1 n2) m t) /\ (forall m t, M n2 m t -> M (Nat.max n1 n2) m t)).
  { intros. split; intros; eapply M_le; try eassumption; lia. }
  apply gval_mutind.
  - intros. exists O. constructor; assumption.
  - intros p d m t Hr (n & Hn). exists n. constructor; assumption.
  - intros p d body d' ts _ (n & Hn). exists n. constructor; assumption.
  - intros p d body d' kvs o _ (n & Hn) Ho. exists n. econstructor; eassumption.
  - intros. exists O. constructor.
  - intros p d a d' t _ (n & Hn). exists n. constructor; assumption.
  - intros p d a d1 t b d' ts _ (n1 & H1) _ (n2 & H2). exists (Nat.max n1 n2). destruct (Hle n1 n2) as [L1 L2].
    econstructor; [eapply gval_mono; [exact L1|exact H1]|].
    destruct (gval_mono_all _ _ env L2) as (_ & Hx & _). apply Hx, H2.
  - intros. exists O. constructor.
  - intros f d tok k a d' t Hk _ (n & Hn). exists n. constructor; assumption.
  - intros f d tok k a d1 t b d' kvs Hk _ (n1 & H1) _ (n2 & H2). exists (Nat.max n1 n2). destruct (Hle n1 n2) as [L1 L2].
    econstructor; [exact Hk|eapply gval_mono; [exact L1|exact H1]|].
    destruct (gval_mono_all _ _ env L2) as (_ & _ & Hx). apply Hx, H2.
Qed.

Lemma gmodule_cont env d nl a d' t : gmodule U env d nl a d' t -> exists n, gmodule (M n) env d nl a d' t.
Proof.
  assert (Hfin : forall env d a d' t, gfinal U env d a d' t -> exists n, gfinal (M n) env d a d' t).
  { intros e x y x' u (p & q & n & H1 & H2 & H3). apply (gval_cont_all e) in H3 as (N & HN). exists N, p, q, n. auto. }
  induction 1.
  - destruct IHgmodule as (n & Hn). exists n. constructor; assumption.
  - destruct IHgmodule as (n & Hn). apply (gval_cont_all env) in H0 as (n' & Hn'). exists (Nat.max n' n). econstructor; [eassumption| |].
    + eapply gval_mono; [|exact Hn']. intros. eapply M_le; [|eassumption]. lia.
    + eapply gmodule_mono; [|exact Hn]. intros. eapply M_le; [|eassumption]. lia.
  - destruct IHgmodule as (n & Hn). destruct H0 as (n' & Hn'). exists (Nat.max n' n). econstructor; [assumption| |].
    + eapply M_le; [|exact Hn']. lia.
    + eapply gmodule_mono; [|exact Hn]. intros. eapply M_le; [|eassumption]. lia.
  - apply Hfin in H0 as (n & Hn). exists n. constructor; assumption.
  - apply Hfin in H0 as (n & Hn). exists n. constructor; assumption.
  - apply Hfin in H1 as (n & Hn). exists n. constructor; assumption.
Qed.
End Continuity.

(** ** Modules *)
Section Modules.
Variable io : list Z -> option (list Z).
Variable tf : nat.
Variable R : list Z.   (* the path given to the parser *)

(** Every import is resolved against the directory of the root module. *)
Definition at_root (_ m : list Z) : list Z := path_concat (fst (path_split R)) m.
Notation den := (denotes io tf at_root).

Lemma den_mono n p d t : den n p d t -> den (S n) p d t.
Proof.
  revert p d t. induction n as [|n IH]; intros p d t H; [contradiction|].
  destruct H as (text & toks & H1 & H2 & H3). exists text, toks. split; [exact H1|]. split; [exact H2|].
  eapply gmodule_mono; [|exact H3]. intros m u (d' & Hd). exists d'. apply IH, Hd.
Qed.
Lemma den_le n n' p d t : (n <= n')%nat -> den n p d t -> den n' p d t.
Proof. induction 1; auto using den_mono. Qed.

Lemma den_det n p d1 t1 d2 t2 : den n p d1 t1 -> den n p d2 t2 -> d1 = d2 /\ t1 = t2.
Proof.
  revert p d1 t1 d2 t2. induction n as [|n IH]; intros p d1 t1 d2 t2 H1 H2; [contradiction|].
  destruct H1 as (text & toks & Ha & Hb & Hc). destruct H2 as (text' & toks' & Ha' & Hb' & Hc').
  rewrite Ha in Ha'. injection Ha' as <-. rewrite Hb in Hb'. injection Hb' as <-.
  eapply gmodule_det; [|exact Hc|exact Hc']. intros m u1 u2 (e1 & He1) (e2 & He2). eapply IH; eassumption.
Qed.
Lemma den_fun n n' p d1 t1 d2 t2 : den n p d1 t1 -> den n' p d2 t2 -> d1 = d2 /\ t1 = t2.
Proof.
  intros H1 H2. apply (den_le n (Nat.max n n')) in H1; [|lia]. apply (den_le n' (Nat.max n n')) in H2; [|lia].
  eapply den_det; eassumption.
Qed.

(** *** Soundness *)
Definition sound (c : context) : Prop :=
  cx_path c = R /\ forall p v, bt_get (cx_complete c) p = Some v -> exists n d, den n p d (erase v).
Definition den_mods (m : list Z) (t : tree) : Prop := exists n d, den n (at_root R m) d t.

Lemma sound_set c n : sound c -> sound (cx_set_next c n).
Proof. intros H. exact H. Qed.

Lemma den_cont p text toks d t :
  io p = Some text -> tokenize tf text = Ok toks -> gmodule den_mods [] Json true toks d t -> exists n, den n p d t.
Proof.
  intros H1 H2 H3. apply (gmodule_cont (fun n m t => exists d', den n (at_root R m) d' t)) in H3 as (n & Hn).
  - exists (S n), text, toks. split; [exact H1|]. split; [exact H2|]. exact Hn.
  - intros n m u (d' & Hd). exists d'. apply den_mono, Hd.
Qed.

Lemma parse_tokens_sound depth : forall c ts c' d v,
  sound c -> parse_tokens io tf depth c ts = Ok (c', inl (d, v)) ->
  sound c' /\ gmodule den_mods [] Json true ts d (erase v).
Proof.
  induction depth as [|depth IH]; intros c ts c' d v Hs H; cbn in H; [discriminate|].
  unfold parse_tokens_with in H.
  destruct (push_all _ (root QInitial any_default true) c ts) as [[j c1]| |] eqn:Ep; cbn [obind] in H; try discriminate.
  injection H as -> He.
  destruct (run_sound (import_with io tf (parse_tokens io tf depth)) sound sound_set den_mods ts) with (j := start) (c := c) (j' := j) (c' := c') (d := d) (v := v) as [H1 H2];
    [|exact Ep|apply start_jwf|exact Hs|exact He|].
  - clear c c' d v Hs j Ep He. intros c m c' a _ Hs H. unfold import_with in H.
    destruct Hs as [HR Hc]. rewrite HR in H. fold (at_root R m) in H.
    destruct (bt_get (cx_complete c) (at_root R m)) as [v|] eqn:Eg.
    + injection H as <- <-. split; [split; assumption|]. apply Hc in Eg. exact Eg.
    + destruct (bs_contains (cx_progress c) (at_root R m)); [discriminate|].
      destruct (io (at_root R m)) as [text|] eqn:Eio; [|discriminate].
      destruct (tokenize tf text) as [toks| |] eqn:Et; cbn [obind] in H; try discriminate.
      destruct (parse_tokens io tf depth (cx_reading c (at_root R m)) toks) as [[c2 [[d v]|e]]| |] eqn:Es; cbn [obind] in H; try discriminate.
      injection H as <- <-. apply IH in Es as [[HR2 Hc2] Hg]; [|split; assumption].
      destruct (den_cont _ _ _ _ _ Eio Et Hg) as (n & Hn). split; [|exists n, d; exact Hn].
      split; [exact HR2|]. cbn [cx_loaded cx_complete]. intros p v' Hp. rewrite bt_get_insert in Hp.
      destruct (list_eq_dec Z.eq_dec p (at_root R m)) as [->|]; [injection Hp as <-; eauto|apply Hc2, Hp].
  - split; [exact H2|]. exact H1.
Qed.

Lemma import_sound depth c m c' a :
  sound c -> import_with io tf (parse_tokens io tf depth) c m = Ok (c', inl a) -> sound c' /\ den_mods m (erase a).
Proof.
  intros Hs H. unfold import_with in H.
  destruct Hs as [HR Hc]. rewrite HR in H. fold (at_root R m) in H.
  destruct (bt_get (cx_complete c) (at_root R m)) as [v|] eqn:Eg.
  - injection H as <- <-. split; [split; assumption|]. apply Hc in Eg. exact Eg.
  - destruct (bs_contains (cx_progress c) (at_root R m)); [discriminate|].
    destruct (io (at_root R m)) as [text|] eqn:Eio; [|discriminate].
    destruct (tokenize tf text) as [toks| |] eqn:Et; cbn [obind] in H; try discriminate.
    destruct (parse_tokens io tf depth (cx_reading c (at_root R m)) toks) as [[c2 [[d v]|e]]| |] eqn:Es; cbn [obind] in H; try discriminate.
    injection H as <- <-. apply parse_tokens_sound in Es as [[HR2 Hc2] Hg]; [|split; assumption].
    destruct (den_cont _ _ _ _ _ Eio Et Hg) as (n & Hn). split; [|exists n, d; exact Hn].
    split; [exact HR2|]. cbn [cx_loaded cx_complete]. intros p v' Hp. rewrite bt_get_insert in Hp.
    destruct (list_eq_dec Z.eq_dec p (at_root R m)) as [->|]; [injection Hp as <-; eauto|apply Hc2, Hp].
Qed.

(** *** A successful parse restores the set of modules in progress *)
Definition same_progress (P : list (list Z)) (c : context) : Prop := forall q, In q (cx_progress c) <-> In q P.

Lemma import_progress_with sub :
  (forall c ts c' d v, sub c ts = Ok (c', inl (d, v)) -> forall q, In q (cx_progress c') <-> In q (cx_progress c)) ->
  forall c m c' a, import_with io tf sub c m = Ok (c', inl a) -> forall q, In q (cx_progress c') <-> In q (cx_progress c).
Proof.
  intros Hsub c m c' a H q. unfold import_with in H. cbv zeta in H.
  set (p := path_concat (fst (path_split (cx_path c))) m) in H.
  destruct (bt_get (cx_complete c) p) as [v|]; [injection H as <- <-; tauto|].
  destruct (bs_contains (cx_progress c) p) eqn:Eb; [discriminate|]. apply bs_contains_not in Eb.
  destruct (io p) as [text|]; [|discriminate].
  destruct (tokenize tf text) as [toks| |]; cbn [obind] in H; try discriminate.
  destruct (sub (cx_reading c p) toks) as [[c2 [[d v]|e]]| |] eqn:Es; cbn [obind] in H; try discriminate.
  injection H as <- <-. cbn [cx_loaded cx_progress]. rewrite bs_remove_In, (Hsub _ _ _ _ _ Es).
  cbn [cx_reading cx_progress]. rewrite bs_insert_In. split; [intros [[->|H] Hn]; [congruence|exact H]|].
  intros Hq. split; [auto|]. intros ->. contradiction.
Qed.

Lemma parse_tokens_progress depth : forall c ts c' d v,
  parse_tokens io tf depth c ts = Ok (c', inl (d, v)) -> forall q, In q (cx_progress c') <-> In q (cx_progress c).
Proof.
  induction depth as [|depth IH]; intros c ts c' d v H; cbn in H; [discriminate|].
  unfold parse_tokens_with in H.
  pose proof (run_gen (import_with io tf (parse_tokens io tf depth)) (same_progress (cx_progress c)) (fun _ => True)
    (fun x n Hx => Hx) True True ts) as Hr.
  specialize (Hr ltac:(intros x m _ Hx; destruct (import_with io tf (parse_tokens io tf depth) x m) as [[c1 [a|e]]| |] eqn:Ei; auto;
    intros q; rewrite (import_progress_with _ IH _ _ _ _ Ei); apply Hx) (fun _ => Logic.I) start c start_jwf (fun q => iff_refl _)).
  fold start in H.
  destruct (push_all _ start c ts) as [[j c1]| |] eqn:Ep; cbn [obind] in H; try discriminate.
  injection H as -> He. destruct Hr as [_ [Hr|[(e & ->) _]]]; [exact Hr|discriminate].
Qed.

(** *** Completeness *)
Lemma complete_load n : forall depth c m t,
  (n <= depth)%nat -> sound c -> (forall q, In q (cx_progress c) -> ~ exists d u, den n q d u) ->
  (exists d, den n (at_root R m) d t) ->
  exists c' a, import_with io tf (parse_tokens io tf depth) c m = Ok (c', inl a).
Proof.
  induction n as [|n IH]; intros depth c m t Hd Hs Hnp (d & Hden); [contradiction|].
  destruct depth as [|depth]; [lia|].
  destruct (import_with io tf (parse_tokens io tf (S depth)) c m) as [[c' [a|e]]| |] eqn:Ei; [eauto| | |]; exfalso.
  all: assert (Hnn : ~ exists d u, den n (at_root R m) d u).
  all: try (intros (d' & u & Hn); destruct (IH (S depth) c m u) as (c2 & a2 & Hc2);
    [lia|exact Hs|intros q Hq (x & y & Hxy); exact (Hnp q Hq (ex_intro _ x (ex_intro _ y (den_mono _ _ _ _ Hxy))))|eauto|congruence]).
  all: destruct Hden as (text & toks & H1 & H2 & H3).
  all: unfold import_with in Ei; destruct Hs as [HR Hc]; rewrite HR in Ei; fold (at_root R m) in Ei;
    destruct (bt_get (cx_complete c) (at_root R m)) as [v|] eqn:Eg; [discriminate|];
    destruct (bs_contains (cx_progress c) (at_root R m)) eqn:Eb;
    [apply bs_contains_In in Eb; apply (Hnp _ Eb); exists d, t, text, toks; auto|];
    rewrite H1, H2 in Ei; cbn [obind] in Ei.
  all: assert (Hok : exists c2 v, parse_tokens io tf (S depth) (cx_reading c (at_root R m)) toks = Ok (c2, inl (d, v))).
  all: try (destruct Hok as (c2 & v & Hok); rewrite Hok in Ei; discriminate).
  all: destruct (run_complete (import_with io tf (parse_tokens io tf depth))
      (fun x => sound x /\ same_progress (cx_progress (cx_reading c (at_root R m))) x)
      (fun x k Hx => Hx) (fun m t => exists d', den n (at_root R m) d' t) toks) with
      (j := start) (c := cx_reading c (at_root R m)) (d := d) (t := t) as (j' & c2 & v & Hp & He & _);
    [ | exact H3 | apply start_jwf | split; [split; assumption|intros q; reflexivity]
      | exists c2, v; cbn; unfold parse_tokens_with; fold start; rewrite Hp; cbn; rewrite He; reflexivity ].
  all: intros x m' u _ [Hxs Hxp] (d' & Hu);
    destruct (IH depth x m' u) as (x' & a' & Hx'); [lia|exact Hxs| |eauto|];
    [ intros q Hq Hex; apply Hxp in Hq; cbn [cx_reading cx_progress] in Hq; apply bs_insert_In in Hq as [->|Hq];
      [exact (Hnn Hex)|destruct Hex as (y & z & Hyz); exact (Hnp q Hq (ex_intro _ y (ex_intro _ z (den_mono _ _ _ _ Hyz))))]
    | exists x', a'; split; [exact Hx'|];
      destruct (import_sound depth x m' x' a' Hxs Hx') as [Hs' (n' & d2 & Hd2)];
      split; [eapply den_fun; eassumption|]; split; [exact Hs'|];
      intros q; rewrite (import_progress_with _ (parse_tokens_progress depth) _ _ _ _ Hx'); apply Hxp ].
Qed.

(** The parser on a fresh cache. *)
Definition fresh (n : Z) : context := {| cx_next := n; cx_path := R; cx_complete := []; cx_progress := []; cx_log := [] |}.

Theorem parse_sound depth k c' d v :
  parse io tf depth (fresh k) = Ok (c', inl (d, v)) -> exists n, den n R d (erase v).
Proof.
  unfold parse. cbn [fresh cx_path]. destruct (io R) as [text|] eqn:Eio; [|discriminate].
  destruct (tokenize tf text) as [toks| |] eqn:Et; cbn [obind]; try discriminate.
  intros H. apply parse_tokens_sound in H as [_ Hg].
  - eapply den_cont; eassumption.
  - split; [reflexivity|]. discriminate.
Qed.

Theorem parse_complete n depth k d t :
  den n R d t -> (n <= depth)%nat -> exists c' v, parse io tf depth (fresh k) = Ok (c', inl (d, v)) /\ erase v = t.
Proof.
  revert depth d t. induction n as [|n IH]; intros depth d t Hden Hd; [contradiction|].
  destruct depth as [|depth]; [lia|].
  assert (Hc : (exists c' v, parse io tf (S depth) (fresh k) = Ok (c', inl (d, v))) ->
    exists c' v, parse io tf (S depth) (fresh k) = Ok (c', inl (d, v)) /\ erase v = t).
  { intros (c' & v & Hp). exists c', v. split; [exact Hp|]. apply parse_sound in Hp as (n' & Hn'). eapply den_fun; eassumption. }
  destruct (parse io tf (S depth) (fresh k)) as [[c' [[d0 v]|e]]| |] eqn:Ei.
  { pose proof Ei as Hs. apply parse_sound in Hs as (n' & Hn'). destruct (den_fun _ _ _ _ _ _ _ Hn' Hden) as [-> Hv]. eauto. }
  all: exfalso; assert (Hnn : ~ exists d u, den n R d u);
    [ intros (d' & u & Hn); destruct (IH (S depth) d' u Hn ltac:(lia)) as (c2 & v2 & H2 & _); congruence |].
  all: destruct Hden as (text & toks & H1 & H2 & H3).
  all: unfold parse in Ei; cbn [fresh cx_path] in Ei; rewrite H1, H2 in Ei; cbn [obind] in Ei;
    change {| cx_next := k; cx_path := R; cx_complete := []; cx_progress := []; cx_log := [] |} with (fresh k) in Ei.
  all: destruct (run_complete (import_with io tf (parse_tokens io tf depth))
      (fun x => sound x /\ same_progress [R] x)
      (fun x k Hx => Hx) (fun m t => exists d', den n (at_root R m) d' t) toks) with
      (j := start) (c := cx_reading (fresh k) R) (d := d) (t := t) as (j' & c2 & v & Hp & He & _);
    [ | exact H3 | apply start_jwf | split; [split; [reflexivity|discriminate]|intros q; reflexivity]
      | cbn [parse_tokens] in Ei; unfold parse_tokens_with in Ei; fold start in Ei; rewrite Hp in Ei; cbn in Ei; rewrite He in Ei; discriminate ].
  all: intros x m' u _ [Hxs Hxp] (d' & Hu);
    destruct (complete_load n depth x m' u) as (x' & a' & Hx'); [lia|exact Hxs| |eauto|];
    [ intros q Hq Hex; apply Hxp in Hq as [<-|[]]; exact (Hnn Hex)
    | exists x', a'; split; [exact Hx'|];
      destruct (import_sound depth x m' x' a' Hxs Hx') as [Hs' (n' & d2 & Hd2)];
      split; [eapply den_fun; eassumption|]; split; [exact Hs'|];
      intros q; rewrite (import_progress_with _ (parse_tokens_progress depth) _ _ _ _ Hx'); apply Hxp ].
Qed.
End Modules.
