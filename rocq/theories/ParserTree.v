(** A JSON text gives a tree: no block of the value is used in two places. *)
From Coq Require Import ZArith List Bool Lia.
From Coq Require Import ZifyBool ZifyNat.
From Verif Require Import Outcome TokenizerModel ValueModel BTreeProofs ParserModel SerializerModel SerializerSpec SerializerProofs.
Import ListNotations.
Open Scope Z_scope.

(** The blocks of a value, once per occurrence. *)
Fixpoint ids (a : any) : list Z :=
  match a with
  | AArray i l => i :: flat_map ids l
  | AObject i l => i :: flat_map (fun kv => ids (snd kv)) l
  | _ => []
  end.
Lemma ids_children a : ids a = match ident_of a with Some i => [i] | None => [] end ++ flat_map ids (children a).
Proof.
  destruct a as [ | | | | |i l|i l]; try reflexivity. cbn. f_equal. induction l as [|kv l IH]; [reflexivity|]. cbn. rewrite IH. reflexivity.
Qed.
Lemma sub_ids a b i : sub a b -> ident_of b = Some i -> In i (ids a).
Proof.
  induction 1 as [a|a c b Hc Hs IH]; intros Hi; rewrite ids_children.
  - rewrite Hi. left. reflexivity.
  - apply in_or_app. right. apply in_flat_map. exists c. auto.
Qed.
Lemma nodup_flat (l : list any) : NoDup (flat_map ids l) -> (forall c, In c l -> NoDup (ids c)) /\
  forall k k' c c' i, nth_error l k = Some c -> nth_error l k' = Some c' -> In i (ids c) -> In i (ids c') -> k = k'.
Proof.
  induction l as [|a l IH]; cbn [flat_map]; intros H; [split; [contradiction|intros [|k] k' c c' i [=]]|].
  assert (Ha : NoDup (ids a) /\ NoDup (flat_map ids l) /\ forall x, In x (ids a) -> ~ In x (flat_map ids l)).
  { clear IH. induction (ids a) as [|x m IHm]; cbn in H; [split; [constructor|split; [exact H|contradiction]]|].
    inversion H as [|? ? Hn Hm]; subst. destruct (IHm Hm) as (A & B & C). rewrite in_app_iff in Hn.
    split; [constructor; tauto|]. split; [exact B|]. intros y [<-|Hy]; [tauto|apply C, Hy]. }
  destruct Ha as (A & B & C). destruct (IH B) as (D & E). split; [intros c [<-|Hc]; [exact A|apply D, Hc]|].
  assert (F : forall k c i, nth_error l k = Some c -> In i (ids c) -> In i (flat_map ids l)).
  { intros k c i Hk Hi. apply in_flat_map. exists c. split; [apply (nth_error_In _ _ Hk)|exact Hi]. }
  intros [|k] [|k'] c c' i Hk Hk' Hi Hi'; cbn in Hk, Hk'.
  - reflexivity.
  - injection Hk as <-. exfalso. apply (C i Hi). apply (F _ _ _ Hk' Hi').
  - injection Hk' as <-. exfalso. apply (C i Hi'). apply (F _ _ _ Hk Hi).
  - f_equal. apply (E k k' c c' i); assumption.
Qed.

Lemma place_in r i p : place r i p -> In i (ids r).
Proof.
  intros [H|b j k c Hb Hj Hk Hi]; [apply (sub_ids r r); [constructor|exact H]|]. apply (sub_ids r c); [|exact Hi].
  clear -Hb Hk. induction Hb as [b|a d b Hd _ IH]; [eapply sub_child; [apply (nth_error_In _ _ Hk)|constructor]|].
  eapply sub_child; [exact Hd|exact (IH Hk)].
Qed.
(** The places of a block below the root. *)
Lemma place_child r i j k : place r i (Some (j, k)) ->
  (ident_of r = Some j /\ exists c, nth_error (children r) k = Some c /\ place c i None)
  \/ exists m c, nth_error (children r) m = Some c /\ place c i (Some (j, k)).
Proof.
  intros H. inversion H as [|b j' k' c Hb Hj Hk Hi]; subst. inversion Hb as [|a d b' Hd Hs]; subst.
  - left. split; [exact Hj|]. exists c. split; [exact Hk|constructor; exact Hi].
  - right. apply In_nth_error in Hd as [m Hm]. exists m, d. split; [exact Hm|]. econstructor; eassumption.
Qed.
Lemma nodup_unshared r : NoDup (ids r) -> forall i, ~ shared r i.
Proof.
  enough (H : NoDup (ids r) -> forall i p q, place r i p -> place r i q -> p = q) by (intros Hn i (p & q & Hne & Hp & Hq); apply Hne, (H Hn i); assumption).
  induction r as [ |b|f|s|b|i0 l IH|i0 l IH] using any_rect_all; intros Hn.
  1-5: intros i p q Hp; apply place_in in Hp; contradiction.
  all: match goal with |- forall i p q, place ?R i p -> _ => set (r := R) in * end.
  all: assert (IH' : forall c, In c (children r) -> NoDup (ids c) -> forall i p q, place c i p -> place c i q -> p = q) by exact IH; clear IH.
  all: rewrite ids_children in Hn; cbn [ident_of app] in Hn; inversion Hn as [|? ? Hnot Hfl]; subst.
  all: destruct (nodup_flat _ Hfl) as (Hc & Huniq); intros i p q Hp Hq.
  all: assert (Hroot : place r i None -> forall j k, ~ place r i (Some (j, k))) by
   (intros H0 j k H1; inversion H0 as [E|]; subst; injection E as <-; apply Hnot;
    destruct (place_child _ _ _ _ H1) as [(_ & c & Hk & Hpl)|(m & c & Hk & Hpl)];
    apply in_flat_map; exists c; (split; [apply (nth_error_In _ _ Hk)|apply (place_in _ _ _ Hpl)])).
  all: destruct p as [[j k]|], q as [[j' k']|]; try reflexivity; try (exfalso; eapply Hroot; eassumption).
  all: destruct (place_child _ _ _ _ Hp) as [(Ej & c & Hk & Hpl)|(m & c & Hk & Hpl)];
       destruct (place_child _ _ _ _ Hq) as [(Ej' & c' & Hk' & Hpl')|(m' & c' & Hk' & Hpl')];
       pose proof (Huniq _ _ _ _ _ Hk Hk' (place_in _ _ _ Hpl) (place_in _ _ _ Hpl')) as E; subst; rewrite Hk in Hk'; injection Hk' as <-.
  all: try (assert (j = j') by congruence; subst; reflexivity).
  all: exact (IH' c (nth_error_In _ _ Hk) (Hc c (nth_error_In _ _ Hk)) i _ _ Hpl Hpl') || (exfalso; discriminate (IH' c (nth_error_In _ _ Hk) (Hc c (nth_error_In _ _ Hk)) i _ _ Hpl Hpl')).
Qed.

(** * Counting blocks in parser states *)
Definition cnt (i : Z) (l : list Z) : nat := count_occ Z.eq_dec l i.
Definition el_ids (e : stack_element) : list Z :=
  match e with StObject m _ => flat_map (fun kv => ids (snd kv)) m | StArray l => flat_map ids l end.
Definition cur_ids (e : json_element) : list Z := match e with JNone => [] | JStack e => el_ids e | JAny a => ids a end.
Definition st_ids (s : any_state) : list Z := cur_ids (as_current s) ++ flat_map el_ids (as_stack s).
(** At most one occurrence of each block, all older than [n]. *)
Definition once (n : Z) (l : list Z) : Prop := forall i, (cnt i l <= 1)%nat /\ (n <= i -> cnt i l = O).
Lemma cnt_app i a b : cnt i (a ++ b) = (cnt i a + cnt i b)%nat.
Proof. apply count_occ_app. Qed.
Lemma once_nodup n l : once n l -> NoDup l.
Proof. intros H. apply (NoDup_count_occ Z.eq_dec). intros i. apply H. Qed.
Lemma once_less n l l' : once n l -> (forall i, (cnt i l' <= cnt i l)%nat) -> once n l'.
Proof. intros H Hl i. specialize (H i). specialize (Hl i). lia. Qed.

Definition importing (x : parsing_status) : bool := match x with SImportBegin | SImportValue | SImportEnd => true | _ => false end.
Definition tidy (n : Z) (s : any_state) : Prop := as_consts s = [] /\ importing (as_status s) = false /\ once n (st_ids s).
Definition res_tidy (n : Z) (r : any_result) : Prop :=
  match r with
  | RContinue s => as_type s <> Json \/ tidy n s
  | RSuccess s v => as_type s <> Json \/ as_consts s = [] /\ once n (ids v)
  | RError _ => True
  end.

Lemma insert_cnt m k v i : (cnt i (flat_map (fun kv => ids (snd kv)) (bt_insert m k v)) <= cnt i (flat_map (fun kv => ids (snd kv)) m) + cnt i (ids v))%nat.
Proof.
  induction m as [|[k' v'] m IH]; cbn [bt_insert flat_map snd]; [rewrite !cnt_app; cbn; lia|].
  destruct (str_cmp k k'); cbn [flat_map snd]; rewrite ?cnt_app in *; cbn; lia.
Qed.

Lemma push_value_tidy n s v r : as_consts s = [] -> once n (st_ids s ++ ids v) -> push_value s v = Ok r -> res_tidy n r.
Proof.
  intros Hc Ho. unfold push_value. unfold st_ids in Ho. destruct (as_current s) as [|[m k|l]|] eqn:E; intros [= <-]; cbn [res_tidy as_type set_status set_current].
  - right. split; [exact Hc|]. eapply once_less; [exact Ho|]. intros i. rewrite !cnt_app. lia.
  - right. split; [exact Hc|]. split; [reflexivity|]. eapply once_less; [exact Ho|]. intros i. unfold st_ids. cbn [as_current as_stack set_current set_status cur_ids el_ids].
    rewrite !cnt_app. pose proof (insert_cnt m k v i). lia.
  - right. split; [exact Hc|]. split; [reflexivity|]. eapply once_less; [exact Ho|]. intros i. unfold st_ids. cbn [as_current as_stack set_current set_status cur_ids el_ids].
    rewrite flat_map_app, !cnt_app. cbn [flat_map]. rewrite app_nil_r. lia.
Qed.
Lemma pushed_cnt s i : (cnt i (flat_map el_ids (pushed_stack s)) <= cnt i (st_ids s))%nat.
Proof. unfold pushed_stack, st_ids. destruct (as_current s); cbn [flat_map cur_ids]; rewrite ?cnt_app; lia. Qed.
Lemma popped_cnt s i : (cnt i (st_ids (popped s)) + cnt i (cur_ids (as_current s)) = cnt i (st_ids s))%nat.
Proof.
  unfold popped, st_ids. destruct (as_stack s) as [|e st] eqn:E; cbn [as_current as_stack set_stack set_current cur_ids]; rewrite ?E; cbn [flat_map]; rewrite !cnt_app; cbn; lia.
Qed.
Lemma token_ids t v : try_to_any t [] = Some v -> ids v = [].
Proof.
  unfold try_to_any, try_id_to_any. destruct t; try discriminate; try (intros [= <-]; reflexivity).
  repeat (destruct (str_eqb _ _); [intros [= <-]; reflexivity|]). discriminate.
Qed.
Lemma scalar_tidy n s t r : tidy n s -> parse_scalar s t = Ok r -> res_tidy n r.
Proof.
  intros (Hc & Hs & Ho). unfold parse_scalar. rewrite Hc. destruct (try_to_any t []) as [a|] eqn:E; [|intros [= <-]; exact I].
  apply push_value_tidy; [exact Hc|]. rewrite (token_ids _ _ E), app_nil_r. exact Ho.
Qed.
Lemma begin_tidy n s : tidy n s -> res_tidy n (begin_array s) /\ res_tidy n (begin_object s) /\ res_tidy n (begin_import s).
Proof.
  intros (Hc & Hs & Ho). split; [|split; [|left; discriminate]]; right; (split; [exact Hc|]); (split; [reflexivity|]);
    (eapply once_less; [exact Ho|]); intros i; apply (pushed_cnt s i).
Qed.
Lemma value_tidy n s t r : tidy n s -> parse_value s t = Ok r -> res_tidy n r.
Proof.
  intros H. pose proof (begin_tidy n s H) as (B1 & B2 & B3). unfold parse_value.
  destruct t; try (apply scalar_tidy, H); try (intros [= <-]; assumption).
  destruct (_ && _); [intros [= <-]; exact B3|apply scalar_tidy, H].
Qed.
Lemma key_tidy n s k : tidy n s -> res_tidy n (push_key s k).
Proof.
  intros (Hc & Hs & Ho). unfold push_key. destruct (as_current s) as [|[m k'|l]|] eqn:E; try exact I.
  right. split; [exact Hc|]. split; [reflexivity|]. unfold st_ids in *. cbn [as_current as_stack set_current set_status cur_ids el_ids]. rewrite E in Ho. exact Ho.
Qed.
Lemma block_tidy n s a r n' : tidy n s -> (forall i, cnt i (ids a) = cnt i (n :: cur_ids (as_current s))) ->
  opure (n + 1) (push_value (popped s) a) = Ok (r, n') -> n <= n' /\ res_tidy n' r.
Proof.
  intros (Hc & Hs & Ho) Ha. unfold opure. destruct (push_value (popped s) a) as [r0| |] eqn:E; cbn [obind]; [|discriminate|discriminate].
  intros [= <- <-]. split; [lia|]. eapply push_value_tidy; [| |exact E].
  - unfold popped. destruct (as_stack s); exact Hc.
  - intros i. specialize (Ho i). specialize (Ha i). pose proof (popped_cnt s i) as P. rewrite cnt_app. unfold cnt in *. cbn [count_occ] in Ha.
    destruct (Z.eq_dec n i); lia.
Qed.
Lemma common_tidy n s t r n' : tidy n s -> any_parse_common s n t = Ok (r, n') -> n <= n' /\ res_tidy n' r.
Proof.
  intros H. pose proof (begin_tidy n s H) as (B1 & B2 & B3).
  assert (Hp : forall o, (forall r, o = Ok r -> res_tidy n r) -> opure n o = Ok (r, n') -> n <= n' /\ res_tidy n' r).
  { intros o Ho. unfold opure. destruct o as [r0| |]; cbn [obind]; [|discriminate|discriminate]. intros [= <- <-]. split; [lia|]. apply Ho. reflexivity. }
  assert (Hq : forall r0, res_tidy n r0 -> pure n r0 = Ok (r, n') -> n <= n' /\ res_tidy n' r) by (intros r0 H0 [= <- <-]; split; [lia|exact H0]).
  assert (Hs : opure n (parse_scalar s t) = Ok (r, n') -> n <= n' /\ res_tidy n' r) by (apply Hp; intros r0; apply scalar_tidy, H).
  assert (Hu : forall e, pure n (RError e) = Ok (r, n') -> n <= n' /\ res_tidy n' r) by (intros e; apply Hq; exact I).
  assert (Hk : forall x, importing x = false -> pure n (RContinue (set_status s x)) = Ok (r, n') -> n <= n' /\ res_tidy n' r).
  { intros x Hx. apply Hq. right. destruct H as (A & B & C). split; [exact A|]. split; [exact Hx|exact C]. }
  assert (Ha : end_array s n = Ok (r, n') -> n <= n' /\ res_tidy n' r).
  { unfold end_array. destruct (as_current s) as [|[m k|l]|] eqn:E; try discriminate. apply block_tidy; [exact H|]. intros i. rewrite E. reflexivity. }
  assert (Hb : end_object s n = Ok (r, n') -> n <= n' /\ res_tidy n' r).
  { unfold end_object. destruct (as_current s) as [|[m k|l]|] eqn:E; try discriminate. apply block_tidy; [exact H|]. intros i. rewrite E. cbn [ids cur_ids el_ids].
    f_equal. f_equal. clear. induction m as [|kv m IH]; [reflexivity|]. cbn. rewrite IH. reflexivity. }
  unfold any_parse_common. destruct (as_status s) eqn:Est.
  all: try (apply Hp; intros r0; apply value_tidy, H).
  all: unfold parse_array_begin, parse_array_value, parse_array_comma, parse_object_begin, parse_object_key, parse_object_next, parse_object_comma,
         parse_import_begin, parse_import_end; try discriminate; destruct t; try exact Hs; try apply Hu; try exact Ha; try exact Hb; try (apply Hk; reflexivity).
  all: try (apply Hq, begin_tidy, H); try (apply Hq, key_tidy, H).
  all: try (destruct (_ && _); [apply Hq, begin_tidy, H|exact Hs]).
  all: try (destruct (is_djs _); [apply Hq, key_tidy, H|apply Hu]).
  all: destruct H as (_ & H & _); rewrite Est in H; discriminate.
Qed.

(** The type of the data is Json until something else than JSON is met. *)
Lemma push_value_type s v r : push_value s v = Ok r -> match r with RContinue s' | RSuccess s' _ => as_type s' = as_type s | RError _ => True end.
Proof. unfold push_value. destruct (as_current s) as [|[m k|l]|]; intros [= <-]; reflexivity. Qed.
Lemma popped_type s : as_type (popped s) = as_type s.
Proof. unfold popped. destruct (as_stack s); reflexivity. Qed.
Definition leaves (r : any_result) : Prop := match r with RContinue s | RSuccess s _ => as_type s <> Json | RError _ => True end.
Lemma common_leaves n s t r n' : as_type s <> Json -> any_parse_common s n t = Ok (r, n') -> leaves r.
Proof.
  intros H.
  assert (Hp : forall m o, (forall r, o = Ok r -> leaves r) -> opure m o = Ok (r, n') -> leaves r).
  { intros m o Ho. unfold opure. destruct o as [r0| |]; cbn [obind]; [|discriminate|discriminate]. intros [= <- <-]. apply Ho. reflexivity. }
  assert (Hq : forall r0, leaves r0 -> pure n r0 = Ok (r, n') -> leaves r) by (intros r0 H0 [= <- <-]; exact H0).
  assert (Hv : forall s' v r0, as_type s' = as_type s -> push_value s' v = Ok r0 -> leaves r0).
  { intros s' v r0 E E'. apply push_value_type in E'. destruct r0; cbn; congruence. }
  assert (Hc : forall r0, parse_scalar s t = Ok r0 -> leaves r0).
  { intros r0. unfold parse_scalar. destruct (try_to_any _ _); [apply Hv; reflexivity|intros [= <-]; exact I]. }
  assert (Hs : opure n (parse_scalar s t) = Ok (r, n') -> leaves r) by (apply Hp, Hc).
  assert (Hb : leaves (begin_array s) /\ leaves (begin_object s) /\ leaves (begin_import s)) by (split; [exact H|split; [exact H|discriminate]]).
  destruct Hb as (B1 & B2 & B3).
  assert (Hpk : forall k, leaves (push_key s k)) by (intros k; unfold push_key; destruct (as_current s) as [|[]|]; try exact I; exact H).
  assert (Ha : end_array s n = Ok (r, n') -> leaves r).
  { unfold end_array. destruct (as_current s) as [|[m k|l]|]; try discriminate. apply Hp. intros r0. apply Hv, popped_type. }
  assert (Ho : end_object s n = Ok (r, n') -> leaves r).
  { unfold end_object. destruct (as_current s) as [|[m k|l]|]; try discriminate. apply Hp. intros r0. apply Hv, popped_type. }
  unfold any_parse_common. destruct (as_status s).
  all: try (apply Hp; intros r0; unfold parse_value; destruct t; try apply Hc; try (intros [= <-]; assumption); destruct (_ && _); [intros [= <-]; exact B3|apply Hc]).
  all: unfold parse_array_begin, parse_array_value, parse_array_comma, parse_object_begin, parse_object_key, parse_object_next, parse_object_comma,
         parse_import_begin, parse_import_end; try discriminate; destruct t; try exact Hs; try exact Ha; try exact Ho; try (apply Hq; first [exact B1|exact B2|exact I|apply Hpk|exact H]).
  all: try (destruct (_ && _); [apply Hq; assumption|exact Hs]).
  all: try (destruct (is_djs _); apply Hq; [apply Hpk|exact I]).
  all: try (apply Hp; intros r0 [= <-]; exact I).
  apply Hp. intros r0. unfold end_import. destruct (as_current s); try discriminate. apply Hv. rewrite popped_type. reflexivity.
Qed.

Lemma cx_any_tidy load s c t r c' : as_type s <> Json \/ tidy (cx_next c) s -> cx_any_parse load s c t = Ok (r, c') -> res_tidy (cx_next c') r.
Proof.
  intros Hs H. unfold cx_any_parse in H.
  assert (Hn : (let! (r, n') := any_parse_common s (cx_next c) t in Ok (r, cx_set_next c n')) = Ok (r, c') -> res_tidy (cx_next c') r).
  { destruct (any_parse_common s (cx_next c) t) as [[r0 n']| |] eqn:E; cbn [obind]; [|discriminate|discriminate]. intros [= <- <-]. cbn [cx_set_next cx_next].
    destruct Hs as [Hs|Hs]; [apply common_leaves in E; [destruct r0; cbn in *; auto|exact Hs]|apply (common_tidy _ _ _ _ _ Hs E)]. }
  destruct (as_status s) eqn:Est; try (apply Hn, H).
  destruct t; try (injection H as <- <-; exact I). destruct (load c s0) as [[c1 r0]| |]; cbn [obind] in H; try discriminate. injection H as <- <-.
  destruct r0 as [a|e]; [|exact I]. left. cbn. destruct Hs as [Hs|(_ & Hs & _)]; [exact Hs|rewrite Est in Hs; discriminate].
Qed.

Definition js_tidy (n : Z) (j : json_state) : Prop :=
  match j with
  | PRoot r => as_type (rs_state r) <> Json \/ rs_status r = QInitial /\ tidy n (rs_state r)
  | PConst _ s => as_type s <> Json
  | PModule s => as_type s <> Json \/ tidy n s
  | PResult d v => d <> Json \/ once n (ids v)
  | PError _ => True
  end.

Lemma tidy_later n n' s : n <= n' -> tidy n s -> tidy n' s.
Proof. intros Hl (A & B & C). split; [exact A|]. split; [exact B|]. intros i. specialize (C i). split; [lia|]. intros. apply C. lia. Qed.

Lemma root_tidy r n t j i n' : as_type (rs_state r) <> Json \/ rs_status r = QInitial /\ tidy n (rs_state r) -> root_parse r n t = Ok (j, i, n') ->
  js_tidy n' j /\ (i <> None -> exists r', j = PRoot r' /\ as_type (rs_state r') <> Json).
Proof.
  intros H E. set (G := js_tidy n' j /\ (i <> None -> exists r', j = PRoot r' /\ as_type (rs_state r') <> Json)).
  assert (Hs : as_type (rs_state r) <> Json \/ tidy n (rs_state r)) by tauto.
  assert (Hm : (let! (jm, n') := parse_for_module (rs_state r) n t in Ok (fst jm, None (A:=list Z * list Z), n')) = Ok (j, i, n') -> G).
  { unfold parse_for_module, any_parse. subst G. destruct (as_status (rs_state r)) eqn:Est.
    all: match goal with
    | |- context [any_parse_common] =>
       destruct (any_parse_common (rs_state r) n t) as [[r0 n0]| |] eqn:Ec; cbn [obind fst]; [|discriminate|discriminate]; intros [= <- <- <-]; split; [|congruence];
       assert (Hr : res_tidy n0 r0) by (destruct Hs as [Hs|Hs]; [apply common_leaves in Ec; [destruct r0; cbn in *; auto|exact Hs]|apply (common_tidy _ _ _ _ _ Hs Ec)]);
       destruct r0; cbn in *; tauto
    | _ => idtac end.
    destruct Hs as [Hs|(_ & Hs & _)]; [|rewrite Est in Hs; discriminate].
    destruct t; cbn [parse_import_value obind fst]; intros [= <- <- <-]; (split; [|congruence]); try exact I. left. exact Hs. }
  unfold root_parse in E. destruct (rs_status r) eqn:Eq.
  all: try (destruct H as [H|[H _]]; [|discriminate]).
  all: destruct t; repeat match type of E with context [if ?b then _ else _] => destruct b end; try (apply Hm, E); injection E as <- <- <-; subst G;
    (split; [|first [congruence | intros _; eexists; split; [reflexivity|exact H]]]); cbn; auto; try (left; discriminate).
  all: destruct H as [H|[_ H]]; auto.
Qed.

Lemma cx_push_tidy load j c t j' c' : js_tidy (cx_next c) j -> cx_push load j c t = Ok (j', c') -> js_tidy (cx_next c') j'.
Proof.
  intros Hj E. unfold cx_push in E. destruct j as [r|key s|s|d v|e].
  - assert (E' : cx_root_parse load r c t = Ok (j', c')) by (destruct t; exact E). clear E. unfold cx_root_parse in E'.
    destruct (root_parse r (cx_next c) t) as [[[j0 i] n']| |] eqn:Er; cbn [obind] in E'; try discriminate.
    destruct (root_tidy _ _ _ _ _ _ Hj Er) as [Ht Hi]. destruct i as [[id m]|]; [|injection E' as <- <-; exact Ht].
    destruct (Hi ltac:(discriminate)) as (r' & -> & Hty). destruct (load _ m) as [[c2 res]| |]; cbn [obind] in E'; try discriminate. injection E' as <- <-.
    destruct res; [left; exact Hty|exact I].
  - assert (E' : Ok (PConst key s, c) = Ok (j', c') \/ cx_const_parse load key s c t = Ok (j', c')) by (destruct t; auto). clear E.
    destruct E' as [E|E]; [injection E as <- <-; exact Hj|]. unfold cx_const_parse in E.
    assert (Em' : (let! (r, c') := cx_any_parse load s c t in Ok (const_result key r, c')) = Ok (j', c')) by (destruct t; solve [exact E|discriminate]). clear E.
    destruct (cx_any_parse load s c t) as [[r c1]| |] eqn:Ea; cbn [obind] in Em'; try discriminate. injection Em' as <- <-.
    assert (Hl : leaves r).
    { clear -Ea Hj. unfold cx_any_parse in Ea. cbn in Hj. assert (Hn : (let! (r, n') := any_parse_common s (cx_next c) t in Ok (r, cx_set_next c n')) = Ok (r, c1) -> leaves r).
      { destruct (any_parse_common s (cx_next c) t) as [[r0 n']| |] eqn:E; cbn [obind]; [|discriminate|discriminate]. intros [= <- <-]. apply (common_leaves _ _ _ _ _ Hj E). }
      destruct (as_status s); try (apply Hn, Ea). destruct t; try (injection Ea as <- <-; exact I).
      destruct (load c s0) as [[c2 r0]| |]; cbn [obind] in Ea; try discriminate. injection Ea as <- <-. destruct r0; [exact Hj|exact I]. }
    destruct r; cbn in *; auto.
  - assert (E' : Ok (PModule s, c) = Ok (j', c') \/ cx_module_parse load s c t = Ok (j', c')) by (destruct t; auto). clear E.
    destruct E' as [E|E]; [injection E as <- <-; exact Hj|]. unfold cx_module_parse in E.
    destruct (cx_any_parse load s c t) as [[r c1]| |] eqn:Ea; cbn [obind] in E; try discriminate. injection E as <- <-.
    pose proof (cx_any_tidy _ _ _ _ _ _ Hj Ea) as Hr. destruct r; cbn in *; tauto.
  - destruct t; injection E as <- <-; exact I || exact Hj.
  - destruct t; injection E as <- <-; exact I.
Qed.

Lemma push_all_tidy load ts : forall j c j' c', js_tidy (cx_next c) j -> push_all load j c ts = Ok (j', c') -> js_tidy (cx_next c') j'.
Proof.
  induction ts as [|t ts IH]; intros j c j' c' Hj E; cbn [push_all] in E; [injection E as <- <-; exact Hj|].
  destruct (cx_push load j c t) as [[j1 c1]| |] eqn:Ep; cbn [obind] in E; try discriminate. apply (IH j1 c1); [apply (cx_push_tidy _ _ _ _ _ _ Hj Ep)|exact E].
Qed.

Lemma parse_json_tree : forall io tf depth c c' v, parse io tf depth c = Ok (c', inl (Json, v)) -> forall i, ~ shared v i.
Proof.
  intros io tf depth c c' v. unfold parse. destruct (io _) as [text|]; [|discriminate].
  destruct (tokenize tf text) as [ts| |]; cbn [obind]; [|discriminate|discriminate]. destruct depth as [|depth]; [discriminate|]. cbn [parse_tokens].
  unfold parse_tokens_with. destruct (push_all _ _ _ ts) as [[j c1]| |] eqn:E; cbn [obind]; [|discriminate|discriminate]. intros [= <- Hj].
  apply push_all_tidy in E; [|right; split; [reflexivity|]; split; [reflexivity|split; [reflexivity|]]; intros i; cbn; lia].
  destruct j; try discriminate. injection Hj as -> ->. destruct E as [E|E]; [congruence|]. apply nodup_unshared, (once_nodup _ _ E).
Qed.
