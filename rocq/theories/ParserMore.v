(** JSON texts, termination, single loading, cycles, absence of panics. *)
From Coq Require Import ZArith List Bool String Lia Sorted.
From Verif Require Import Outcome JsBigintModel TokenizerModel TokenizerSpec ValueModel ParserModel ParserSpec BTreeProofs ParserProofs ParserRun ParserModules TextSpec TextProofs.
Import ListNotations.
Open Scope Z_scope.

(** ** JSON *)
Lemma gval_not_json mods env :
  (forall p d a d' t, gval mods env p d a d' t -> d <> Json -> d' <> Json)
  /\ (forall p d a d' ts, gelems mods env p d a d' ts -> d <> Json -> d' <> Json)
  /\ (forall f d a d' kvs, gmembers mods env f d a d' kvs -> d <> Json -> d' <> Json).
Proof. apply gval_mutind; intros; auto; discriminate. Qed.

Lemma gval_json mods :
  (forall p d a d' t, gval mods [] p d a d' t -> d = Json -> d' = Json -> json_value a t)
  /\ (forall p d a d' ts, gelems mods [] p d a d' ts -> d = Json -> d' = Json -> json_elems a ts)
  /\ (forall f d a d' kvs, gmembers mods [] f d a d' kvs -> d = Json -> d' = Json -> json_members a kvs).
Proof.
  destruct (gval_not_json mods []) as (Nv & Ne & Nm).
  assert (Hj : forall d : data_type, d = Json \/ d <> Json) by (intros []; (left; congruence) || (right; congruence)).
  apply gval_mutind.
  - intros. constructor. assumption.
  - intros. discriminate.
  - intros. constructor. auto.
  - intros. econstructor; eauto.
  - intros. constructor.
  - intros. constructor. auto.
  - intros p d a d1 t b d' ts Hg IHg He IHe -> ->. destruct (Hj d1) as [->|Hn]; [|exfalso; exact (Ne _ _ _ _ _ He Hn eq_refl)].
    constructor; auto.
  - intros. constructor.
  - intros f d tok k a d' t Hk Hg IHg -> ->. destruct Hk; [constructor; auto|]. discriminate.
  - intros f d tok k a d1 t b d' kvs Hk Hg IHg He IHe -> ->. destruct (Hj d1) as [->|Hn]; [|exfalso; exact (Nm _ _ _ _ _ He Hn eq_refl)].
    destruct Hk; [constructor; auto|]. discriminate.
Qed.

Lemma json_gval mods :
  (forall a t, json_value a t -> forall p, gval mods [] p Json a Json t)
  /\ (forall a ts, json_elems a ts -> forall p, gelems mods [] p Json a Json ts)
  /\ (forall a kvs, json_members a kvs -> forall f, gmembers mods [] f Json a Json kvs).
Proof.
  apply json_value_mutind; intros.
  - constructor; [assumption|]. intros ->. inversion H; subst. discriminate.
  - constructor. auto.
  - econstructor; eauto.
  - constructor.
  - constructor. auto.
  - econstructor; eauto.
  - constructor.
  - constructor; [constructor|auto].
  - econstructor; [constructor|auto|auto].
Qed.

(** A JSON text: line breaks anywhere between the tokens of a JSON value. *)
Definition json_text (toks : list token) (t : tree) : Prop :=
  exists n0 a b n, toks = repeat TNewLine n0 ++ b ++ repeat TNewLine n /\ spread a b /\ json_value a t.

Lemma spread_head x a b : spread (x :: a) b -> exists n b', b = repeat TNewLine n ++ x :: b' /\ spread a b'.
Proof.
  intros H. remember (x :: a) as l eqn:E. revert x a E. induction H; intros y c [= -> ->].
  - destruct (IHspread _ _ eq_refl) as (n & b' & -> & Hs). exists (S n), b'. auto.
  - exists O, b. auto.
Qed.

Lemma json_value_start a t : json_value a t -> exists tok r, a = tok :: r /\ tok <> TNewLine /\ opens_statement Json tok = false.
Proof.
  intros H. destruct H; eexists; eexists; (split; [reflexivity|]); try (split; [discriminate|reflexivity]).
  destruct H; try (split; [discriminate|reflexivity]). discriminate.
Qed.

Lemma gmodule_json mods toks t : gmodule mods [] Json true toks Json t <-> json_text toks t.
Proof.
  split.
  - intros H. remember [] as env eqn:E1. remember Json as d eqn:E2. rewrite E2 in H at 2. remember Json as d' eqn:E3 in H.
    remember true as nl eqn:E4.
    assert (Hstay : forall env d nl toks d' t, gmodule mods env d nl toks d' t -> d <> Json -> d' <> Json).
    { clear. induction 1; intros Hd.
      - auto.
      - apply IHgmodule. eapply (proj1 (gval_not_json mods env)); [eassumption|discriminate].
      - apply IHgmodule. discriminate.
      - destruct H0 as (a & b & n & _ & _ & Hg). eapply (proj1 (gval_not_json mods env)); [eassumption|discriminate].
      - destruct H0 as (a & b & n & _ & _ & Hg). eapply (proj1 (gval_not_json mods env)); [eassumption|discriminate].
      - destruct H1 as (a & b & n & _ & _ & Hg). eapply (proj1 (gval_not_json mods env)); eassumption. }
    induction H; subst.
    + destruct (IHgmodule eq_refl eq_refl eq_refl eq_refl) as (n0 & a & b & n & -> & Hs & Hv). exists (S n0), a, b, n. auto.
    + exfalso. eapply Hstay; [eassumption| |reflexivity]. eapply (proj1 (gval_not_json mods [])); [eassumption|discriminate].
    + exfalso. eapply Hstay; [eassumption| |reflexivity]. discriminate.
    + exfalso. destruct H0 as (a & b & n & _ & _ & Hg). eapply (proj1 (gval_not_json mods [])); [eassumption| |reflexivity]; discriminate.
    + exfalso. destruct H0 as (a & b & n & _ & _ & Hg). eapply (proj1 (gval_not_json mods [])); [eassumption| |reflexivity]; discriminate.
    + destruct H1 as (a & b & n & -> & Hs & Hg). exists O, a, b, n. split; [reflexivity|]. split; [exact Hs|].
      eapply (proj1 (gval_json mods)); [eassumption| |]; reflexivity.
  - intros (n0 & a & b & n & -> & Hs & Hv).
    assert (Hnl : forall k toks d' t, gmodule mods [] Json true toks d' t -> gmodule mods [] Json true (repeat TNewLine k ++ toks) d' t).
    { induction k; intros; cbn; [assumption|]. constructor. auto. }
    apply Hnl. destruct (json_value_start a t Hv) as (tok & r & -> & Hn & Ho).
    destruct (spread_head _ _ _ Hs) as (k & b' & -> & Hs'). rewrite <- app_assoc. apply Hnl. cbn.
    apply gs_value; [exact Ho|exact Hn|]. exists (tok :: r), (tok :: b'), n. split; [reflexivity|]. split; [constructor; exact Hs'|].
    apply (proj1 (json_gval mods)), Hv.
Qed.

Lemma parse_json load c toks t :
  (exists c' v, parse_tokens_with load c toks = Ok (c', inl (Json, v)) /\ erase v = t) <-> json_text toks t.
Proof.
  unfold parse_tokens_with. fold start. split.
  - intros (c' & v & H & <-).
    destruct (push_all load start c toks) as [[j c1]| |] eqn:E; cbn [obind] in H; try discriminate. injection H as -> He.
    destruct (run_sound load (fun _ => True) (fun _ _ _ => I) (fun _ _ => True) toks) with (2 := E) (5 := He) as [Hg _];
      [auto|apply start_jwf|exact I|].
    apply (gmodule_json (fun _ _ => True)). exact Hg.
  - intros H. apply (gmodule_json (fun _ _ => False)) in H. apply start_jres in H.
    assert (Hl : forall (x : context) m (u : tree), In (TString m) toks -> True -> (fun _ _ => False : Prop) m u ->
      exists c' a, load x m = Ok (c', inl a) /\ erase a = u /\ True) by contradiction.
    destruct (run_complete load (fun _ => True) (fun _ _ _ => I) (fun _ _ => False) toks Hl start c Json t H start_jwf I)
      as (j' & c' & v & Hp & He & Hv & _).
    exists c', v. rewrite Hp. cbn. rewrite He. auto.
Qed.

(** ** Facts about every run, successful or not *)
Section Inv.
Variable io : list Z -> option (list Z).
Variable tf : nat.
Variable I : context -> Prop.
Hypothesis Iset : forall c n, I c -> I (cx_set_next c n).
Hypothesis Iread : forall c p, I c -> bt_get (cx_complete c) p = None -> ~ In p (cx_progress c) -> I (cx_reading c p).
Hypothesis Iload : forall c p v, I c -> In p (cx_progress c) -> I (cx_loaded c p v).

(** An invariant of the elementary context changes holds after every run.  (The module being
    loaded is in progress until it is complete: progress only shrinks on success.) *)
Lemma run_inv depth : forall c ts,
  I c -> match parse_tokens io tf depth c ts with Ok (c', _) => I c' | _ => True end.
Proof.
  induction depth as [|depth IH]; intros c ts Hc; cbn [parse_tokens]; [exact Logic.I|].
  unfold parse_tokens_with. fold start.
  pose proof (run_gen (import_with io tf (parse_tokens io tf depth)) I I Iset True True ts) as Hr.
  assert (Hl : forall c m, In (TString m) ts -> I c ->
    match import_with io tf (parse_tokens io tf depth) c m with Ok (c', inl a) => I c' | Ok (c', inr e) => I c' | Panic => True | NoFuel => True end).
  { clear c Hc Hr. intros c m _ Hc. unfold import_with. cbv zeta. set (p := path_concat _ m).
    destruct (bt_get (cx_complete c) p) eqn:Eg; [exact Hc|].
    destruct (bs_contains (cx_progress c) p) eqn:Eb; [exact Hc|]. apply bs_contains_not in Eb.
    pose proof (Iread c p Hc Eg Eb) as Hr.
    destruct (io p) as [text|]; [|exact Hr].
    destruct (tokenize tf text) as [toks| |]; cbn [obind]; try exact Logic.I.
    specialize (IH (cx_reading c p) toks Hr).
    destruct (parse_tokens io tf depth (cx_reading c p) toks) as [[c2 [[d v]|e]]| |] eqn:Es; cbn [obind]; try exact IH.
    apply Iload; [exact IH|]. apply (parse_tokens_progress io tf [] depth _ _ _ _ _ Es). cbn. apply bs_insert_In. auto. }
  specialize (Hr Hl (fun _ => Logic.I) start c start_jwf Hc).
  destruct (push_all _ start c ts) as [[j c1]| |]; cbn [obind]; try exact Logic.I.
  destruct Hr as [_ [Hr|[_ Hr]]]; exact Hr.
Qed.
End Inv.

(** Each path is read at most once. *)
Definition log_inv (c : context) : Prop :=
  NoDup (cx_log c) /\ forall p, In p (cx_log c) -> In p (cx_progress c) \/ bt_get (cx_complete c) p <> None.

Lemma NoDup_snoc {A} (l : list A) x : NoDup l -> ~ In x l -> NoDup (l ++ [x]).
Proof.
  intros H Hx. apply NoDup_rev in H. rewrite <- (rev_involutive (l ++ [x])). apply NoDup_rev. rewrite rev_app_distr. cbn.
  constructor; [rewrite <- in_rev; exact Hx|exact H].
Qed.

Lemma log_inv_run io tf depth c ts :
  log_inv c -> match parse_tokens io tf depth c ts with Ok (c', _) => log_inv c' | _ => True end.
Proof.
  apply run_inv with (I := log_inv).
  - intros x n H. exact H.
  - intros x p [H1 H2] Hg Hp. split; cbn.
    + apply NoDup_snoc; [exact H1|]. intros Hin. destruct (H2 p Hin); [contradiction|congruence].
    + intros q Hq. rewrite bs_insert_In. apply in_app_or in Hq as [Hq|[<-|[]]]; [|auto].
      destruct (H2 q Hq); auto.
  - intros x p v [H1 H2] Hp. split; cbn; [exact H1|]. intros q Hq. rewrite bs_remove_In, bt_get_insert.
    destruct (list_eq_dec Z.eq_dec q p) as [->|Hn]; [right; discriminate|]. destruct (H2 q Hq); auto.
Qed.

(** A module once loaded keeps its value (and identity). *)
Lemma complete_run io tf depth c ts p v :
  (forall q, In q (cx_progress c) -> bt_get (cx_complete c) q = None) ->
  bt_get (cx_complete c) p = Some v ->
  match parse_tokens io tf depth c ts with Ok (c', _) => bt_get (cx_complete c') p = Some v | _ => True end.
Proof.
  intros Hc Hp.
  pose proof (run_inv io tf (fun x => (forall q, In q (cx_progress x) -> bt_get (cx_complete x) q = None) /\ bt_get (cx_complete x) p = Some v)) as H.
  specialize (H (fun x n Hx => Hx)).
  assert (H' : match parse_tokens io tf depth c ts with Ok (c', _) => (forall q, In q (cx_progress c') -> bt_get (cx_complete c') q = None) /\ bt_get (cx_complete c') p = Some v | _ => True end).
  { apply H; auto.
    - intros x q [H1 H2] Hg Hq. split; cbn; [|exact H2]. intros q'. rewrite bs_insert_In. intros [->|Hq']; auto.
    - intros x q w [H1 H2] Hq. split; cbn.
      + intros q'. rewrite bs_remove_In, bt_get_insert. intros [Hq' Hn]. destruct (list_eq_dec Z.eq_dec q' q); [contradiction|auto].
      + rewrite bt_get_insert. destruct (list_eq_dec Z.eq_dec p q) as [->|]; [|exact H2]. rewrite H1 in H2 by exact Hq. discriminate. }
  destruct (parse_tokens io tf depth c ts) as [[c' r]| |]; auto. apply H'.
Qed.

Lemma path_run io tf depth c ts R :
  cx_path c = R -> match parse_tokens io tf depth c ts with Ok (c', _) => cx_path c' = R | _ => True end.
Proof. apply run_inv with (I := fun c => cx_path c = R); auto. Qed.

(** ** Termination and panics *)
Definition pending (F : list (list Z)) (c : context) : nat :=
  List.length (filter (fun p => negb (bs_contains (cx_progress c) p)) F).

Lemma filter_le {A} (f g : A -> bool) l : (forall x, f x = true -> g x = true) -> (List.length (filter f l) <= List.length (filter g l))%nat.
Proof.
  intros H. induction l as [|x l IH]; cbn; [lia|]. destruct (f x) eqn:E; [rewrite (H _ E); cbn; lia|]. destruct (g x); cbn; lia.
Qed.
Lemma filter_lt {A} (f g : A -> bool) l y :
  (forall x, f x = true -> g x = true) -> In y l -> f y = false -> g y = true -> (List.length (filter f l) < List.length (filter g l))%nat.
Proof.
  intros H Hy Hf Hg. induction l as [|x l IH]; [contradiction|]. cbn. destruct Hy as [->|Hy].
  - rewrite Hf, Hg. cbn. pose proof (filter_le f g l H). lia.
  - specialize (IH Hy). destruct (f x) eqn:E; [rewrite (H _ E); cbn; lia|]. destruct (g x); cbn; lia.
Qed.

Section Total.
Variable io : list Z -> option (list Z).
Variable tf : nat.
Variable R : list Z.
Variable F : list (list Z).   (* all paths in the file system *)
Hypothesis HF : forall p text, io p = Some text -> In p F.
Variable PP : Prop.
Hypothesis Htok : forall p text, io p = Some text ->
  match tokenize tf text with Ok ts => In TSemicolon ts -> PP | Panic => PP | NoFuel => False end.

Lemma pending_reading c p (P : list (list Z)) n :
  same_progress P c -> In p F -> ~ In p (cx_progress c) ->
  (List.length (filter (fun q => negb (bs_contains P q)) F) < S n)%nat -> (pending F (cx_reading c p) < n)%nat.
Proof.
  intros Hx Hm Eb Hd. unfold pending. eapply Nat.lt_le_trans; [apply filter_lt with (y := p)|apply Nat.lt_succ_r, Hd].
  - intros q Hq. apply negb_true_iff in Hq. apply negb_true_iff. apply bs_contains_not in Hq. apply bs_contains_not. intros Hin. apply Hq.
    cbn. apply bs_insert_In. right. apply Hx, Hin.
  - exact Hm.
  - apply negb_false_iff, bs_contains_In. cbn. apply bs_insert_In. auto.
  - apply negb_true_iff. apply bs_contains_not. intros Hin. apply Eb, Hx, Hin.
Qed.

Lemma total_run depth : forall c ts,
  (In TSemicolon ts -> PP) -> (pending F c < depth)%nat ->
  match parse_tokens io tf depth c ts with Ok _ => True | Panic => PP | NoFuel => False end.
Proof.
  induction depth as [|depth IH]; intros c ts Hsc Hd; [lia|].
  cbn [parse_tokens]. unfold parse_tokens_with. fold start.
  pose proof (run_gen (import_with io tf (parse_tokens io tf depth)) (same_progress (cx_progress c))
    (fun _ => True) (fun x n Hx => Hx) PP False ts) as Hr.
  assert (Hl : forall x m, In (TString m) ts -> same_progress (cx_progress c) x ->
    match import_with io tf (parse_tokens io tf depth) x m with Ok (c', inl a) => same_progress (cx_progress c) c' | Ok (c', inr e) => True | Panic => PP | NoFuel => False end).
  { intros x m Hm Hx.
    pose proof (import_progress_with io tf [] _ (parse_tokens_progress io tf [] depth) x m) as Hpr.
    unfold import_with in *. cbv zeta in *. set (p := path_concat _ m) in *.
    destruct (bt_get (cx_complete x) p) eqn:Eg; [auto|].
    destruct (bs_contains (cx_progress x) p) eqn:Eb; [exact Logic.I|].
    destruct (io p) as [text|] eqn:Eio; [|exact Logic.I].
    pose proof (Htok p text Eio) as Ht.
    destruct (tokenize tf text) as [toks| |] eqn:Etok; cbn [obind] in *; [|exact Ht|exact Ht].
    assert (Hsub := IH (cx_reading x p) toks Ht).
    assert (Hpe : (pending F (cx_reading x p) < depth)%nat).
    { apply pending_reading with (P := cx_progress c); [exact Hx|apply (HF _ _ Eio)|apply bs_contains_not, Eb|exact Hd]. }
    specialize (Hsub Hpe).
    destruct (parse_tokens io tf depth (cx_reading x p) toks) as [[c2 [[d v]|e]]| |] eqn:Es; cbn [obind] in *.
    - intros q. rewrite (Hpr _ _ eq_refl). apply Hx.
    - exact Logic.I.
    - exact Hsub.
    - exact Hsub. }
  specialize (Hr Hl Hsc start c start_jwf (fun q => iff_refl _)).
  destruct (push_all _ start c ts) as [[j c1]| |]; cbn [obind]; [exact Logic.I|exact Hr|exact Hr].
Qed.

Lemma total_parse depth k :
  (List.length F <= depth)%nat ->
  match parse io tf depth (fresh R k) with Ok _ => True | Panic => PP | NoFuel => False end.
Proof.
  intros Hd. unfold parse. cbn [fresh cx_path]. destruct (io R) as [text|] eqn:Eio; [|exact Logic.I].
  pose proof (Htok R text Eio) as Ht.
  destruct (tokenize tf text) as [toks| |] eqn:Etok; cbn [obind]; [|exact Ht|exact Ht].
  apply total_run; [exact Ht|].
  apply pending_reading with (P := []); [intros q; reflexivity|apply (HF _ _ Eio)|intros []|].
  apply Nat.lt_succ_r. eapply Nat.le_trans; [|exact Hd].
  generalize F. clear. intros l. induction l as [|x l IH]; [apply Nat.le_refl|]. cbn [filter List.length]. destruct (negb _); cbn [List.length]; lia.
Qed.
End Total.

(** ** Cycles *)

(** The module's first statement imports [m]. *)
Definition first_import (ts : list token) (m : list Z) : Prop :=
  exists n k rest, ts = repeat TNewLine n ++ TId (txt "import") :: TId k :: TId (txt "from") :: TString m :: rest.

Lemma first_import_push load ts m c :
  first_import ts m ->
  exists n k rest, push_all load start c ts =
    (let! (c', r) := load (cx_set_next c n) m in
     push_all load (match r with inl a => root QInitial (set_consts (set_type any_default Mjs) (bt_insert [] k a)) false | inr e => PError e end) c' rest).
Proof.
  intros (n & k & rest & ->).
  assert (Hnl : forall l, push_all load start c (repeat TNewLine n ++ l) = push_all load start (cx_set_next c (cx_next c)) l).
  { induction n as [|n IH]; intros l; cbn [repeat app].
    - rewrite <- cx_same. reflexivity.
    - change (push_all load start c (TNewLine :: repeat TNewLine n ++ l)) with
        (push_all load start (cx_set_next c (cx_next c)) (repeat TNewLine n ++ l)). rewrite <- cx_same. rewrite IH, <- cx_same. reflexivity. }
  exists (cx_next c), k, rest. rewrite Hnl.
  transitivity (let! (j', c1) := (let! (c2, res) := load (cx_set_next c (cx_next c)) m in
     Ok (match res with inl a => root QInitial (set_consts (set_type any_default Mjs) (bt_insert [] k a)) false | inr e => PError e end, c2))
     in push_all load j' c1 rest); [reflexivity|].
  destruct (load (cx_set_next c (cx_next c)) m) as [[c' r]| |]; reflexivity.
Qed.

Section Cycle.
Variable io : list Z -> option (list Z).
Variable tf : nat.
Variable R : list Z.
Variable S : list (list Z).
Hypothesis HS : forall p, In p S -> exists text ts m,
  io p = Some text /\ tokenize tf text = Ok ts /\ first_import ts m /\ In (at_root R p m) S.

Lemma cycle_load depth : forall c m,
  cx_path c = R -> (forall p, In p S -> bt_get (cx_complete c) p = None) -> In (at_root R R m) S -> (pending S c < depth)%nat ->
  exists c', import_with io tf (parse_tokens io tf depth) c m = Ok (c', inr CircularDependency).
Proof.
  induction depth as [|depth IH]; intros c m HR Hc Hm Hd; [lia|].
  unfold import_with. cbv zeta. rewrite HR. fold (at_root R R m). set (p := at_root R R m) in *.
  rewrite (Hc p Hm). destruct (bs_contains (cx_progress c) p) eqn:Eb; [eauto|].
  destruct (HS p Hm) as (text & ts & m' & Hio & Htok & Hfi & Hm'). rewrite Hio, Htok. cbn [obind parse_tokens].
  unfold parse_tokens_with. fold start.
  destruct (first_import_push (import_with io tf (parse_tokens io tf depth)) ts m' (cx_reading c p) Hfi) as (n & k & rest & ->).
  destruct (IH (cx_set_next (cx_reading c p) n) m') as (c' & ->).
  - exact HR.
  - exact Hc.
  - exact Hm'.
  - eapply Nat.lt_le_trans; [apply filter_lt with (y := p)|apply Nat.lt_succ_r, Hd].
    + intros q Hq. apply negb_true_iff in Hq. apply negb_true_iff. apply bs_contains_not in Hq. apply bs_contains_not. intros Hin. apply Hq.
      cbn. apply bs_insert_In. auto.
    + exact Hm.
    + apply negb_false_iff, bs_contains_In. cbn. apply bs_insert_In. auto.
    + apply negb_true_iff, Eb.
  - cbn [obind]. rewrite push_all_err. cbn. eauto.
Qed.

Lemma cycle_parse depth k :
  In R S -> (List.length S < depth)%nat -> exists c', parse io tf depth (fresh R k) = Ok (c', inr CircularDependency).
Proof.
  intros HR Hd. unfold parse. cbn [fresh cx_path]. destruct (HS R HR) as (text & ts & m & Hio & Htok & Hfi & Hm). rewrite Hio, Htok. cbn [obind].
  destruct depth as [|depth]; [lia|]. cbn [parse_tokens]. unfold parse_tokens_with. fold start.
  destruct (first_import_push (import_with io tf (parse_tokens io tf depth)) ts m (cx_reading (fresh R k) R) Hfi) as (n & x & rest & ->).
  destruct (cycle_load depth (cx_set_next (cx_reading (fresh R k) R) n) m) as (c' & ->).
  - reflexivity.
  - reflexivity.
  - exact Hm.
  - eapply Nat.lt_le_trans; [|apply Nat.lt_succ_r, Hd].
    eapply Nat.lt_le_trans; [apply filter_lt with (y := R) (g := fun _ => true)|].
    + reflexivity.
    + exact HR.
    + apply negb_false_iff, bs_contains_In. cbn. auto.
    + reflexivity.
    + generalize S. clear. intros l. induction l as [|x l IH]; [apply Nat.le_refl|]. cbn [filter List.length]. lia.
  - cbn [obind]. rewrite push_all_err. cbn. eauto.
Qed.
End Cycle.


(** The modules that a module names: [import … from "m"] and [require("m")].  [prev]: the last
    token was [from], or an opening parenthesis with nothing but line breaks since. *)
Definition next_prev (prev : nat) (tok : token) : nat :=
  match tok with
  | TId i => if list_eq_dec Z.eq_dec i (txt "from") then 1%nat else O
  | TOpenPar => 2%nat
  | TNewLine => match prev with 2%nat => 2%nat | _ => O end
  | _ => O
  end.
Fixpoint uses_from (prev : nat) (ts : list token) : list (list Z) :=
  match ts with
  | [] => []
  | tok :: ts' =>
      match tok, prev with
      | TString m, S _ => m :: uses_from (next_prev prev tok) ts'
      | _, _ => uses_from (next_prev prev tok) ts'
      end
  end.
Definition uses (ts : list token) : list (list Z) := uses_from O ts.

Definition last_prev (prev : nat) (ts : list token) : nat := fold_left next_prev ts prev.

Lemma uses_app prev a b : uses_from prev (a ++ b) = uses_from prev a ++ uses_from (last_prev prev a) b.
Proof.
  revert prev. induction a as [|tok a IH]; intros prev; [reflexivity|]. cbn [app uses_from last_prev fold_left]. rewrite IH. fold (last_prev (next_prev prev tok) a).
  destruct tok; try reflexivity. destruct prev; reflexivity.
Qed.
Lemma uses_indep prev tok a : (forall m, tok <> TString m) -> tok <> TNewLine -> uses_from prev (tok :: a) = uses_from (next_prev O tok) a.
Proof. intros H H0. destruct tok; try reflexivity; exfalso; ((apply H0; reflexivity) || (eapply H; reflexivity)). Qed.

Section Uses.
Variable mods : list Z -> tree -> Prop.
Let used (l : list (list Z)) : Prop := Forall (fun m => exists v, mods m v) l.

Lemma used_app a b : used a -> used b -> used (a ++ b).
Proof. intros. apply Forall_app. auto. Qed.

(** A value that does not follow [from] or a parenthesis; at its end no parenthesis is open. *)
Lemma uses_gval env :
  (forall p d a d' t, gval mods env p d a d' t -> used (uses_from O a) /\ (last_prev O a <= 1)%nat)
  /\ (forall p d a d' ts, gelems mods env p d a d' ts -> used (uses_from O a) /\ (last_prev O a <= 1)%nat)
  /\ (forall f d a d' kvs, gmembers mods env f d a d' kvs -> used (uses_from O a) /\ (last_prev O a <= 1)%nat).
Proof.
  assert (Hid : forall prev s, (next_prev prev (TId s) <= 1)%nat) by (intros prev s; cbn [next_prev]; destruct (list_eq_dec Z.eq_dec s (txt "from")); lia).
  apply gval_mutind.
  - intros p d tok t Hs _. destruct Hs; (split; [constructor|]); try (cbn; lia); apply Hid.
  - intros p d m t _ Hm. split; [|cbn; lia]. constructor; [eauto|constructor].
  - intros p d body d' ts _ [H1 H2]. cbn [uses_from]. change (next_prev O TArrayBegin) with O. rewrite uses_app. split.
    + apply used_app; [exact H1|]. constructor.
    + unfold last_prev. cbn. rewrite fold_left_app. cbn. lia.
  - intros p d body d' kvs o _ [H1 H2] _. cbn [uses_from]. change (next_prev O TObjectBegin) with O. rewrite uses_app. split.
    + apply used_app; [exact H1|]. constructor.
    + unfold last_prev. cbn. rewrite fold_left_app. cbn. lia.
  - split; [constructor|cbn; lia].
  - auto.
  - intros p d a d1 t b d' ts _ [H1 H2] _ [H3 H4]. rewrite uses_app, uses_indep by discriminate. split.
    + apply used_app; assumption.
    + unfold last_prev. rewrite fold_left_app. exact H4.
  - split; [constructor|cbn; lia].
  - intros f d tok k a d' t Hk _ [H1 H2]. destruct Hk; (split; [exact H1|exact H2]).
  - intros f d tok k a d1 t b d' kvs Hk _ [H1 H2] _ [H3 H4].
    assert (H : used (uses_from O (a ++ TComma :: b)) /\ (last_prev O (a ++ TComma :: b) <= 1)%nat).
    { rewrite uses_app, uses_indep by discriminate. split; [apply used_app; assumption|]. unfold last_prev. rewrite fold_left_app. exact H4. }
    destruct Hk; (split; [apply H|apply H]).
Qed.

(** Line breaks can only hide uses. *)
Lemma next_prev_mono p p' tok : (p' = p \/ p' = O) -> tok <> TNewLine -> next_prev p' tok = next_prev p tok.
Proof. intros _ H. destruct tok; reflexivity || congruence. Qed.
Lemma token_nl tok : tok = TNewLine \/ tok <> TNewLine.
Proof. destruct tok; (left; reflexivity) || (right; discriminate). Qed.
Lemma last_prev_spread a b : spread a b -> forall p p', p' = p \/ p' = O -> last_prev p' b = last_prev p a \/ last_prev p' b = O.
Proof.
  induction 1 as [|x a b Hs IH|x a b Hs IH]; intros p p' Hp.
  - exact Hp.
  - apply (IH p (next_prev p' TNewLine)). cbn. destruct Hp as [->| ->]; [|auto]. destruct p as [|[|[|p]]]; auto.
  - apply (IH (next_prev p x) (next_prev p' x)). destruct (token_nl x) as [->|Hx].
    + destruct Hp as [->| ->]; auto.
    + left. apply next_prev_mono; assumption.
Qed.
Lemma uses_spread a b : spread a b -> forall p p', p' = p \/ p' = O -> incl (uses_from p' b) (uses_from p a).
Proof.
  induction 1 as [|x a b Hs IH|x a b Hs IH]; intros p p' Hp.
  - intros m [].
  - cbn [uses_from next_prev]. destruct Hp as [->| ->]; [|apply IH; auto].
    apply IH. destruct p as [|[|[|p]]]; auto.
  - destruct (token_nl x) as [->|Hx].
    + cbn [uses_from]. apply IH. destruct Hp as [->| ->]; auto.
    + cbn [uses_from]. rewrite (next_prev_mono p p' x Hp Hx). destruct Hp as [->| ->].
      * destruct x; try (apply IH; auto). destruct p; [apply IH; auto|]. intros m [<-|Hm]; [left; reflexivity|right]. eapply IH; [|exact Hm]. auto.
      * destruct x; try (apply IH; auto). destruct p; [apply IH; auto|]. intros m Hm; right. eapply IH; [|exact Hm]. auto.
Qed.

Lemma uses_gfinal env d toks d' t : gfinal mods env d toks d' t -> used (uses_from O toks).
Proof.
  intros (a & b & n & -> & Hs & Hg). rewrite uses_app. apply used_app.
  - apply (proj1 (uses_gval env)) in Hg as [Hu _]. apply Forall_forall. intros m Hm.
    eapply (proj1 (Forall_forall _ _)) in Hu; [exact Hu|]. apply (uses_spread _ _ Hs O O); auto.
  - generalize (last_prev O b). clear. induction n as [|n IH]; intros p; [constructor|]. apply IH.
Qed.

Lemma uses_gmodule env d nl toks d' t : gmodule mods env d nl toks d' t -> used (uses_from O toks).
Proof.
  induction 1 as [env d nl toks d' t H IH|env d k a b v d1 rest d' t Hs Hg Hr IH|env d k m v rest d' t Hd Hm Hr IH|env d toks d' t Hd Hf|env d toks d' t Hd Hf|env d tok toks d' t Ho Hn Hf].
  - exact IH.
  - change (used (uses_from O (b ++ rest))). rewrite uses_app. apply used_app.
    + apply (proj1 (uses_gval env)) in Hg as [Hu _]. apply Forall_forall. intros m Hm.
      eapply (proj1 (Forall_forall _ _)) in Hu; [exact Hu|]. apply (uses_spread _ _ Hs O O); auto.
    + apply (proj1 (uses_gval env)) in Hg as [_ Hl].
      assert (Hlb : (last_prev O b <= 1)%nat) by (destruct (last_prev_spread a b Hs O O (or_introl eq_refl)); lia).
      inversion Hr; subst. cbn [uses_from next_prev] in *. destruct (last_prev O b) as [|[|n]]; [exact IH|exact IH|lia].
  - change (used (m :: uses_from O rest)). constructor; [eauto|exact IH].
  - apply (uses_gfinal _ _ _ _ _ Hf).
  - apply (uses_gfinal _ _ _ _ _ Hf).
  - apply (uses_gfinal _ _ _ _ _ Hf).
Qed.
End Uses.

(** The module at [p] names the module at [q] (with paths relative to the root). *)
Definition imports io tf R (p q : list Z) : Prop :=
  exists text ts m, io p = Some text /\ tokenize tf text = Ok ts /\ In m (uses ts) /\ q = at_root R p m.

Lemma imports_den io tf R p q n d t :
  imports io tf R p q -> denotes io tf (at_root R) (S n) p d t -> exists d' t', denotes io tf (at_root R) n q d' t'.
Proof.
  intros (text & ts & m & Hio & Htok & Hm & ->) (text' & ts' & Hio' & Htok' & Hg).
  rewrite Hio in Hio'. injection Hio' as <-. rewrite Htok in Htok'. injection Htok' as <-.
  apply uses_gmodule in Hg. eapply (proj1 (Forall_forall _ _)) in Hg; [|exact Hm]. destruct Hg as (v & d' & H). eauto.
Qed.

(** A path with imports nested forever denotes nothing. *)
Lemma endless_den io tf R (P : list Z -> Prop) :
  (forall p, P p -> exists q, imports io tf R p q /\ P q) ->
  forall n p d t, P p -> ~ denotes io tf (at_root R) n p d t.
Proof.
  intros H. induction n as [|n IH]; intros p d t Hp Hd; [exact Hd|].
  destruct (H p Hp) as (q & Hi & Hq). destruct (imports_den _ _ _ _ _ _ _ _ Hi Hd) as (d' & t' & Hd'). exact (IH _ _ _ Hq Hd').
Qed.

(** ** Line breaks *)
Definition not_newline (t : token) : bool := match t with TNewLine => false | _ => true end.
Definition in_value (j : json_state) : Prop := match j with PModule _ | PResult _ _ | PError _ => True | _ => False end.

Lemma in_value_step load j c tok : in_value j ->
  (tok = TNewLine -> cx_push load j c tok = Ok (j, c)) /\
  match cx_push load j c tok with Ok (j', _) => in_value j' | _ => True end.
Proof.
  intros H. destruct j; try contradiction; (split; [intros ->; reflexivity|]).
  - destruct tok; try exact Logic.I; cbn [cx_push]; unfold cx_module_parse;
      destruct (cx_any_parse load s c _) as [[[] c']| |]; cbn; exact Logic.I.
  - destruct tok; exact Logic.I.
  - destruct tok; exact Logic.I.
Qed.

Lemma in_value_newlines load ts : forall j c, in_value j -> push_all load j c (filter not_newline ts) = push_all load j c ts.
Proof.
  induction ts as [|tok ts IH]; intros j c Hj; [reflexivity|].
  destruct (in_value_step load j c tok Hj) as [H1 H2]. cbn [filter]. destruct (token_nl tok) as [->|Hn].
  - cbn [not_newline push_all]. rewrite H1 by reflexivity. cbn [obind]. apply IH, Hj.
  - replace (not_newline tok) with true by (destruct tok; reflexivity || congruence). cbn [push_all].
    destruct (cx_push load j c tok) as [[j' c']| |]; cbn [obind]; [apply IH, H2|reflexivity|reflexivity].
Qed.

(** ** Sorted objects *)
Inductive sorted_tree : tree -> Prop :=
| st_scalar t : (forall l, t <> VArray l) -> (forall l, t <> VObject l) -> sorted_tree t
| st_array l : Forall sorted_tree l -> sorted_tree (VArray l)
| st_object m : StronglySorted (fun a b => text_before (fst a) (fst b)) m ->
    Forall (fun kv => sorted_tree (snd kv)) m ->
    sorted_tree (VObject (map (fun kv => (units (fst kv), snd kv)) m)).

Definition env_sorted (env : list (list Z * tree)) : Prop := forall k t, lookup env k = Some t -> sorted_tree t.

Lemma lookup_in env k t : lookup env k = Some t -> In (k, t) env.
Proof.
  induction env as [|[k' t'] env IH]; cbn; [discriminate|]. destruct (list_eq_dec Z.eq_dec k k') as [->|]; [intros [= ->]; auto|auto].
Qed.
Lemma sorted_lookup (m : list (list Z * tree)) k t :
  StronglySorted (fun a b => str_cmp (fst a) (fst b) = Lt) m -> In (k, t) m -> lookup m k = Some t.
Proof.
  induction 1 as [|[k' t'] m Hm IH Hf]; [intros []|]. cbn. intros [[= -> ->]|Hin].
  - destruct (list_eq_dec Z.eq_dec k k); congruence.
  - destruct (list_eq_dec Z.eq_dec k k') as [->|]; [|auto].
    eapply (proj1 (Forall_forall _ _)) in Hf; [|exact Hin]. cbn in Hf. rewrite str_cmp_refl in Hf. discriminate.
Qed.

Lemma gval_sorted (mods : list Z -> tree -> Prop) env : (forall m t, mods m t -> sorted_tree t) -> env_sorted env ->
  (forall p d a d' t, gval mods env p d a d' t -> sorted_tree t)
  /\ (forall p d a d' ts, gelems mods env p d a d' ts -> Forall sorted_tree ts)
  /\ (forall f d a d' kvs, gmembers mods env f d a d' kvs -> Forall (fun kv => sorted_tree (snd kv)) kvs).
Proof.
  intros Hm He. apply gval_mutind; intros; try (constructor; cbn; auto; fail); eauto.
  - destruct H; try (constructor; discriminate). eauto.
  - destruct H1 as (m & Hs & Hl & ->). constructor; [exact Hs|]. apply Forall_forall. intros [k t] Hin. cbn.
    apply (sorted_lookup m k t (proj1 (sorted_text m) Hs)) in Hin. rewrite Hl in Hin. apply lookup_in in Hin. apply in_rev in Hin.
    eapply (proj1 (Forall_forall _ _)) in H0; [|exact Hin]. exact H0.
Qed.

Lemma gmodule_sorted (mods : list Z -> tree -> Prop) env d nl toks d' t : (forall m t, mods m t -> sorted_tree t) ->
  gmodule mods env d nl toks d' t -> env_sorted env -> sorted_tree t.
Proof.
  intros Hm. induction 1; intros He; auto.
  - apply IHgmodule. intros k' t'. cbn. destruct (list_eq_dec Z.eq_dec k' k); [intros [= <-]; eapply (proj1 (gval_sorted mods env Hm He)); eassumption|apply He].
  - apply IHgmodule. intros k' t'. cbn. destruct (list_eq_dec Z.eq_dec k' k); [intros [= <-]; eauto|apply He].
  - destruct H0 as (a & b & n & _ & _ & Hg). eapply (proj1 (gval_sorted mods env Hm He)); eassumption.
  - destruct H0 as (a & b & n & _ & _ & Hg). eapply (proj1 (gval_sorted mods env Hm He)); eassumption.
  - destruct H1 as (a & b & n & _ & _ & Hg). eapply (proj1 (gval_sorted mods env Hm He)); eassumption.
Qed.

Lemma denotes_sorted io tf rs n : forall p d t, denotes io tf rs n p d t -> sorted_tree t.
Proof.
  induction n as [|n IH]; intros p d t H; [destruct H|]. destruct H as (text & toks & _ & _ & Hg).
  eapply gmodule_sorted; [|exact Hg|].
  - intros m u (d' & H). eauto.
  - intros k u H. discriminate.
Qed.
