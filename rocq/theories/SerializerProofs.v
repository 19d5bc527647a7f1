(** The serializers: strings, values, and reading their output. *)
From Coq Require Import NArith Decimal DecimalN.
From Coq Require Import ZArith List Bool String Lia Sorted.
From Coq Require Import ZifyBool ZifyNat.
From Verif Require Import Outcome LimbsModel LimbsSpec BigIntModel JsBigintModel BigSpec BigFloatSpec RangeMapSpec TokenizerModel TokenizerSpec TextSpec TextProofs
  TokenizerRun TokenizerNum TokenizerTotal TokenizerGrammar ValueModel ParserModel ParserSpec BTreeProofs ParserProofs ParserRun ParserModules ParserMore
  SerializerModel SerializerSpec.
Import ListNotations.
Open Scope Z_scope.
Notation any := ValueModel.any.

Lemma any_rect_all (P : any -> Prop) :
  P ANull -> (forall b, P (ABool b)) -> (forall f, P (ANumber f)) -> (forall s, P (AString s)) -> (forall b, P (ABigint b)) ->
  (forall i l, (forall x, In x l -> P x) -> P (AArray i l)) ->
  (forall i l, (forall x, In x (map snd l) -> P x) -> P (AObject i l)) ->
  forall a, P a.
Proof.
  intros H1 H2 H3 H4 H5 Ha Ho. fix IH 1. intros [ |b|f|s|b|i l|i l]; [exact H1|apply H2|apply H3|apply H4|apply H5| |].
  - apply Ha. induction l as [|y l IHl]; intros x [].
    + subst x. apply IH.
    + apply IHl. assumption.
  - apply Ho. induction l as [|[k y] l IHl]; intros x [].
    + subst x. apply IH.
    + apply IHl. assumption.
Qed.

(** ** Strings *)
Lemma hex_u4 v : hex_value (u4_hex v) = Some (Z.land v 15).
Proof.
  unfold u4_hex. assert (H : 0 <= Z.land v 15 < 16).
  { change 15 with (Z.ones 4). rewrite Z.land_ones by lia. apply Z.mod_pos_bound. lia. }
  generalize dependent (Z.land v 15). intros w H.
  assert (E : w = 0 \/ w = 1 \/ w = 2 \/ w = 3 \/ w = 4 \/ w = 5 \/ w = 6 \/ w = 7 \/ w = 8 \/ w = 9 \/ w = 10 \/ w = 11 \/
              w = 12 \/ w = 13 \/ w = 14 \/ w = 15) by lia.
  repeat (destruct E as [->|E]; [reflexivity|]). subst w. reflexivity.
Qed.
Lemma u4_range v : 48 <= u4_hex v <= 70.
Proof.
  pose proof (hex_u4 v) as H. unfold u4_hex in *.
  assert (Hr : 0 <= Z.land v 15 < 16).
  { change 15 with (Z.ones 4). rewrite Z.land_ones by lia. apply Z.mod_pos_bound. lia. }
  clear H. generalize dependent (Z.land v 15). intros w H.
  assert (E : w = 0 \/ w = 1 \/ w = 2 \/ w = 3 \/ w = 4 \/ w = 5 \/ w = 6 \/ w = 7 \/ w = 8 \/ w = 9 \/ w = 10 \/ w = 11 \/
              w = 12 \/ w = 13 \/ w = 14 \/ w = 15) by lia.
  repeat (destruct E as [->|E]; [vm_compute; split; discriminate|]). subst w. vm_compute. split; discriminate.
Qed.
Lemma u4_value c : 0 <= c < 65536 ->
  Z.land (Z.shiftr c 12) 15 * 4096 + Z.land (Z.shiftr c 8) 15 * 256 + Z.land (Z.shiftr c 4) 15 * 16 + Z.land c 15 = c.
Proof.
  intros H. change 15 with (Z.ones 4). rewrite !Z.land_ones, !Z.shiftr_div_pow2 by lia.
  change (2 ^ 4) with 16. change (2 ^ 8) with 256. change (2 ^ 12) with 4096.
  rewrite (Z.mod_small (c / 4096)) by (split; [apply Z.div_pos; lia|apply Z.div_lt_upper_bound; lia]).
  pose proof (Z.div_mod c 16). pose proof (Z.div_mod (c / 16) 16). pose proof (Z.div_mod (c / 256) 16).
  rewrite Z.div_div in * by lia. change (16 * 16) with 256 in *. change (256 * 16) with 4096 in *. lia.
Qed.

Lemma js_char_units c body u : unit16 c -> unit_spells body u -> unit_spells (js_char c ++ body) (c :: u).
Proof.
  intros Hc H. unfold js_char.
  destruct (Z.ltb_spec c 0x80).
  - repeat match goal with |- context [c =? ?k] => destruct (Z.eqb_spec c k) as [->|]; [apply us_short; [reflexivity|exact H]|] end.
    destruct (Z.ltb_spec c 0x20).
    + rewrite <- (u4_value c) at 2 by exact Hc. apply us_unicode; auto using hex_u4.
    + apply us_raw; auto; lia.
  - rewrite <- (u4_value c) at 2 by exact Hc. apply us_unicode; auto using hex_u4.
Qed.
Lemma js_string_units s : Forall unit16 s -> unit_spells (flat_map js_char s) s.
Proof. induction 1; cbn [flat_map]; [constructor|]. apply js_char_units; assumption. Qed.

Lemma js_char_spells c body u : unit16 c -> ~ surrogate c -> spells body u -> spells (js_char c ++ body) (c :: u).
Proof.
  intros Hc Hs H. unfold js_char.
  assert (Hsc : RangeMapSpec.scalar c) by (unfold RangeMapSpec.scalar, unit16, surrogate in *; lia).
  assert (He : spells (js_escape c ++ body) (c :: u)).
  { rewrite <- (u4_value c) at 2 by exact Hc.
    apply sp_unicode; auto using hex_u4. rewrite u4_value by exact Hc. exact Hsc. }
  destruct (Z.ltb_spec c 0x80); [|exact He].
  repeat match goal with |- context [c =? ?k] => destruct (Z.eqb_spec c k) as [->|]; [apply sp_short; [reflexivity|exact H]|] end.
  destruct (Z.ltb_spec c 0x20); [exact He|]. apply sp_raw; auto. unfold unit16 in Hc. lia.
Qed.
Lemma js_string_spells s : bmp s -> spells (flat_map js_char s) s.
Proof. induction 1 as [|c s [H1 H2] H IH]; cbn [flat_map]; [constructor|]. apply js_char_spells; assumption. Qed.
Lemma js_string_nonneg s : Forall unit16 s -> Forall (fun c => 32 <= c <= 127) (js_string s).
Proof.
  intros H. unfold js_string. constructor; [lia|]. apply Forall_app. split; [|repeat constructor; lia].
  induction H as [|c s Hc H IH]; cbn [flat_map]; [constructor|]. apply Forall_app. split; [|exact IH].
  assert (He : Forall (fun c => 32 <= c <= 127) (js_escape c)).
  { unfold js_escape. repeat constructor; try lia; match goal with |- context [u4_hex ?v] => pose proof (u4_range v); lia end. }
  unfold js_char. destruct (Z.ltb_spec c 0x80); [|exact He].
  repeat match goal with |- context [c =? ?k] => destruct (Z.eqb_spec c k) as [->|]; [repeat constructor; lia|] end.
  destruct (Z.ltb_spec c 0x20); [exact He|]. repeat constructor; lia.
Qed.

Lemma bmp_utf16 s : bmp s -> utf16 s = s.
Proof.
  induction 1 as [|c s [H1 H2] H IH]; [reflexivity|]. cbn [utf16 flat_map]. unfold utf16 in IH. rewrite IH.
  unfold utf16_char. destruct (Z.ltb_spec c 0x10000); [reflexivity|]. unfold unit16 in H1. lia.
Qed.

(** ** Names of constants *)
Lemma uint_text_digits d : Forall (fun c => 48 <= c <= 57) (uint_text d).
Proof. induction d; cbn [uint_text]; constructor; auto; lia. Qed.
Lemma uint_text_inj d d' : uint_text d = uint_text d' -> d = d'.
Proof. revert d'. induction d; intros [] H; cbn [uint_text] in H; try discriminate; auto; injection H as H; f_equal; auto. Qed.
(** Digits without a leading zero are determined by their value. *)
Definition decimal_form (l : list Z) : Prop := l = [48] \/ exists c r, l = c :: r /\ c <> 48.
Lemma dec_value_snoc l c : dec_value (l ++ [c]) = dec_value l * 10 + (c - 48).
Proof. unfold dec_value. rewrite fold_left_app. reflexivity. Qed.
Lemma dec_value_nonneg l : Forall (fun c => 48 <= c <= 57) l -> 0 <= dec_value l.
Proof.
  induction l as [|c l IH] using rev_ind; [vm_compute; discriminate|]. intros H. apply Forall_app in H as [H1 H2]. inversion H2; subst.
  rewrite dec_value_snoc. specialize (IH H1). lia.
Qed.
Lemma dec_value_lead c l : 48 <= c <= 57 -> c <> 48 -> Forall (fun c => 48 <= c <= 57) l -> 0 < dec_value (c :: l).
Proof.
  intros Hc Hn. induction l as [|d l IH] using rev_ind; intros H; [unfold dec_value; cbn; lia|].
  apply Forall_app in H as [H1 H2]. inversion H2; subst. change (c :: l ++ [d]) with ((c :: l) ++ [d]). rewrite dec_value_snoc. specialize (IH H1). lia.
Qed.
Lemma decimal_unique l : forall l', Forall (fun c => 48 <= c <= 57) l -> Forall (fun c => 48 <= c <= 57) l' -> decimal_form l -> decimal_form l' ->
  dec_value l = dec_value l' -> l = l'.
Proof.
  assert (Hform : forall l c, l <> [] -> decimal_form (l ++ [c]) -> exists d r, l = d :: r /\ d <> 48).
  { intros m c Hm [H|(d & r & H & Hd)]; destruct m as [|x m]; try congruence.
    - injection H as -> H. destruct m; discriminate.
    - injection H as -> H. eauto. }
  induction l as [|c l IH] using rev_ind; intros l' H H' F F' E; [destruct F as [F|(? & ? & F & _)]; discriminate|].
  destruct l' as [|c' l' _] using rev_ind; [destruct F' as [F'|(? & ? & F' & _)]; discriminate|].
  apply Forall_app in H as [H1 H2]. apply Forall_app in H' as [H1' H2']. inversion H2; inversion H2'; subst.
  rewrite !dec_value_snoc in E. assert (c = c' /\ dec_value l = dec_value l') as [-> E'] by lia. f_equal.
  assert (Hpos : forall m, m <> [] -> Forall (fun c => 48 <= c <= 57) m -> decimal_form (m ++ [c']) -> 0 < dec_value m).
  { intros m Hm Hf Hd. destruct (Hform m c' Hm Hd) as (d & r & -> & Hne). inversion Hf; subst. apply dec_value_lead; auto. }
  destruct l as [|x l].
  - destruct l' as [|y l']; [reflexivity|]. pose proof (Hpos (y :: l') ltac:(discriminate) H1' F'). change (dec_value []) with 0 in E'. lia.
  - destruct l' as [|y l']; [pose proof (Hpos (x :: l) ltac:(discriminate) H1 F); change (dec_value []) with 0 in E'; lia|].
    apply IH; auto; right; [apply (Hform (x :: l) c')|apply (Hform (y :: l') c')]; auto; discriminate.
Qed.
Lemma digits_form k n : 0 <= n < Z.of_nat k -> Forall (fun c => 48 <= c <= 57) (digits k n) /\ dec_value (digits k n) = n
  /\ (n = 0 /\ digits k n = [48] \/ 0 < n /\ exists c r, digits k n = c :: r /\ c <> 48).
Proof.
  revert n. induction k as [|k IH]; intros n Hn; [lia|]. cbn [digits]. destruct (Z.ltb_spec n 10).
  - split; [repeat constructor; lia|]. split; [unfold dec_value; cbn; lia|].
    destruct (Z.eq_dec n 0) as [->|]; [auto|]. right. split; [lia|]. exists (48 + n), []. split; [reflexivity|lia].
  - pose proof (Z.div_mod n 10 ltac:(lia)). pose proof (Z.mod_pos_bound n 10 ltac:(lia)).
    destruct (IH (n / 10)) as (A & B & C); [lia|]. split; [apply Forall_app; split; [exact A|repeat constructor; lia]|].
    split; [rewrite dec_value_snoc, B; lia|]. right. split; [lia|]. destruct C as [[C _]|(_ & c & r & C & Hc)]; [lia|].
    rewrite C. exists c, (r ++ [48 + n mod 10]). auto.
Qed.
Lemma uint_text_acc d : forall acc, fold_left (fun a c => a * 10 + (c - 48)) (uint_text d) (Z.pos acc) = Z.pos (Pos.of_uint_acc d acc).
Proof. induction d; intros acc; cbn [uint_text fold_left Pos.of_uint_acc]; try reflexivity; rewrite <- IHd; f_equal; lia. Qed.
Lemma uint_text_value d : dec_value (uint_text d) = Z.of_N (N.of_uint d).
Proof.
  unfold dec_value. induction d; cbn [uint_text fold_left]; [reflexivity|exact IHd|..];
    match goal with |- fold_left _ _ ?x = _ => let v := eval vm_compute in x in change x with v end; rewrite uint_text_acc; reflexivity.
Qed.
Lemma const_name_text n : const_name n = name_text n.
Proof.
  unfold const_name, name_text. f_equal. unfold usize_text. destruct (digits_form (S n) (Z.of_nat n)) as (A & B & C); [lia|].
  apply decimal_unique; [apply uint_text_digits|exact A| | |].
  - unfold N.to_uint. destruct n as [|n]; [left; reflexivity|]. right. cbn [N.of_nat]. set (p := Pos.of_succ_nat n).
    assert (H : N.to_uint (N.pos p) = unorm (N.to_uint (N.pos p))).
    { rewrite <- (DecimalN.Unsigned.of_to (N.pos p)) at 1. apply DecimalN.Unsigned.to_of. }
    change (N.to_uint (N.pos p)) with (Pos.to_uint p) in H.
    assert (Hnz : dec_value (uint_text (Pos.to_uint p)) <> 0).
    { rewrite uint_text_value. change (Pos.to_uint p) with (N.to_uint (N.pos p)). rewrite DecimalN.Unsigned.of_to. discriminate. }
    unfold unorm in H. destruct (nzhead (Pos.to_uint p)) eqn:E.
    + exfalso. apply Hnz. rewrite H. reflexivity.
    + exfalso. apply (DecimalFacts.nzhead_nonzero _ _ E).
    + rewrite H. eexists. eexists. split; [reflexivity|discriminate].
    + rewrite H. eexists. eexists. split; [reflexivity|discriminate].
    + rewrite H. eexists. eexists. split; [reflexivity|discriminate].
    + rewrite H. eexists. eexists. split; [reflexivity|discriminate].
    + rewrite H. eexists. eexists. split; [reflexivity|discriminate].
    + rewrite H. eexists. eexists. split; [reflexivity|discriminate].
    + rewrite H. eexists. eexists. split; [reflexivity|discriminate].
    + rewrite H. eexists. eexists. split; [reflexivity|discriminate].
    + rewrite H. eexists. eexists. split; [reflexivity|discriminate].
  - destruct C as [[_ C]|[_ C]]; [left|right]; exact C.
  - rewrite B, uint_text_value, DecimalN.Unsigned.of_to. lia.
Qed.
Lemma const_name_inj n m : name_text n = name_text m -> n = m.
Proof.
  unfold name_text. intros H. assert (H' : digits (S n) (Z.of_nat n) = digits (S m) (Z.of_nat m)) by congruence.
  destruct (digits_form (S n) (Z.of_nat n)) as (_ & B & _); [lia|]. destruct (digits_form (S m) (Z.of_nat m)) as (_ & B' & _); [lia|].
  rewrite H' in B. lia.
Qed.

(** ** Strings and lists *)
Lemma js_string_quoted s : Forall unit16 s -> quoted s (js_string s).
Proof. intros H. exists (flat_map js_char s). split; [reflexivity|apply js_string_units, H]. Qed.
Lemma unit_spells_bmp body s : unit_spells body s -> bmp s -> spells body s.
Proof.
  induction 1; intros Hb; [constructor|..]; inversion Hb as [|? ? [Hu Hs] Hr]; subst.
  - apply sp_raw; auto. lia.
  - apply sp_short; auto.
  - apply sp_unicode; auto. unfold RangeMapSpec.scalar, unit16, surrogate in *. lia.
Qed.
Lemma commas_joined l : commas l = joined l.
Proof.
  destruct l as [|x l]; [reflexivity|]. revert x. induction l as [|y l IH]; intros x; [cbn; rewrite app_nil_r; reflexivity|].
  change (commas (x :: y :: l)) with (x ++ 44 :: commas (y :: l)). rewrite IH. reflexivity.
Qed.
Lemma joined_more t x ts : joined (t :: x :: ts) = t ++ 44 :: joined (x :: ts).
Proof. reflexivity. Qed.
Lemma joined_one t : joined [t] = t.
Proof. apply app_nil_r. Qed.
Lemma units_child a c : units a -> In c (children a) -> units c.
Proof. intros H Hc b Hb. apply H. eapply sub_child; eassumption. Qed.

(** ** Lists of writes *)
Lemma omap_ext {A B} (f g : A -> outcome B) l : (forall x, In x l -> f x = g x) -> omap f l = omap g l.
Proof.
  intros H. induction l as [|x l IH]; [reflexivity|]. cbn [omap]. rewrite (H x (or_introl eq_refl)).
  change ((let! y := g x in let! ys := omap f l in Ok (y :: ys)) = let! y := g x in let! ys := omap g l in Ok (y :: ys)).
  rewrite IH by (intros; apply H; right; assumption). reflexivity.
Qed.
Lemma omap_cons {A B} (f : A -> outcome B) x l : omap f (x :: l) = let! y := f x in let! ys := omap f l in Ok (y :: ys).
Proof. reflexivity. Qed.
Lemma omap_fuel {A B} (f : A -> outcome B) l : (forall x, In x l -> f x <> NoFuel) -> omap f l <> NoFuel.
Proof.
  intros H. induction l as [|x l IH]; [discriminate|]. rewrite omap_cons.
  pose proof (H x (or_introl eq_refl)). assert (omap f l <> NoFuel) by (apply IH; intros; apply H; right; assumption).
  destruct (f x); cbn [obind]; try congruence. destruct (omap f l); cbn [obind]; congruence.
Qed.
Lemma omap_panic {A B} (f : A -> outcome B) l x : (forall x, In x l -> f x <> NoFuel) -> In x l -> f x = Panic -> omap f l = Panic.
Proof.
  intros H Hin Hx. induction l as [|y l IH]; [destruct Hin|]. rewrite omap_cons. destruct Hin as [->|Hin].
  - rewrite Hx. reflexivity.
  - rewrite IH by (auto; intros; apply H; right; assumption). pose proof (H y (or_introl eq_refl)).
    destruct (f y); cbn [obind]; congruence.
Qed.
Lemma omap_ok {A B} (f : A -> outcome B) (P : A -> B -> Prop) l : (forall x, In x l -> exists y, f x = Ok y /\ P x y) ->
  exists ys, omap f l = Ok ys /\ Forall2 P l ys.
Proof.
  intros H. induction l as [|x l IH]; [exists []; split; [reflexivity|constructor]|].
  destruct (H x (or_introl eq_refl)) as (y & Hy & HP). destruct IH as (ys & Hys & HF); [intros; apply H; right; assumption|].
  exists (y :: ys). rewrite omap_cons, Hy, Hys. split; [reflexivity|constructor; assumption].
Qed.

(** ** The JSON writer is the writer without names *)
Section Show.
Variable show : Z -> list Z.

Lemma with_refs_nil a : with_refs show [] a = write_json show a.
Proof.
  induction a as [ |b|f|s|b|i l IH|i l IH] using any_rect_all; try reflexivity; cbn [with_refs write_json find_id].
  - rewrite (omap_ext (with_refs show []) (write_json show) l IH). reflexivity.
  - erewrite omap_ext; [reflexivity|]. intros [k x] Hx. cbn [fst snd]. rewrite IH; [reflexivity|].
    apply in_map_iff. exists (k, x). auto.
Qed.

(** ** What is written *)
Lemma no_bigint_child a c : no_bigint a -> In c (children a) -> no_bigint c.
Proof. intros H Hc b Hb. apply H. eapply sub_child; eassumption. Qed.
Lemma sub_trans a b c : sub a b -> sub b c -> sub a c.
Proof. induction 1; intros; [assumption|]. eapply sub_child; eauto. Qed.

Lemma with_refs_written refs a : no_bigint a -> units a ->
  exists text, with_refs show refs a = Ok text /\ written show (find_id refs) a text.
Proof.
  induction a as [ |b|f|s|b|i l IH|i l IH] using any_rect_all; intros Hb Hu.
  - eexists. split; [reflexivity|]. apply wr_spelled; [discriminate|constructor].
  - eexists. split; [reflexivity|]. apply wr_spelled; [discriminate|]. destruct b; constructor.
  - eexists. split; [reflexivity|]. apply wr_spelled; [discriminate|]. constructor.
  - eexists. split; [reflexivity|]. apply wr_spelled; [discriminate|]. constructor. apply js_string_quoted. exact (Hu _ (sub_refl _)).
  - exfalso. eapply Hb; [apply sub_refl|reflexivity].
  - cbn [with_refs]. destruct (find_id refs i) as [n|] eqn:E.
    + eexists. split; [reflexivity|]. rewrite const_name_text. eapply wr_name; [reflexivity|exact E].
    + destruct (omap_ok (with_refs show refs) (written show (find_id refs)) l) as (texts & -> & Hw).
      { intros x Hx. apply IH; [exact Hx| |]; [eapply no_bigint_child|eapply units_child]; eauto. }
      cbn [obind]. eexists. split; [reflexivity|]. unfold write_list. rewrite commas_joined.
      apply wr_spelled; [intros j [= <-]; exact E|]. apply (sl_array show (find_id refs) i l texts).
      clear -Hw. induction Hw; constructor; assumption.
  - cbn [with_refs]. destruct (find_id refs i) as [n|] eqn:E.
    + eexists. split; [reflexivity|]. rewrite const_name_text. eapply wr_name; [reflexivity|exact E].
    + destruct (omap_ok (fun kv => let! t := with_refs show refs (snd kv) in Ok (js_string (fst kv) ++ 58 :: t))
        (fun kv text => exists t, text = js_string (fst kv) ++ 58 :: t /\ written show (find_id refs) (snd kv) t) l) as (texts & -> & Hw).
      { intros [k x] Hx. assert (Hin : In x (map snd l)) by (apply in_map_iff; exists (k, x); auto).
        destruct (IH x Hin) as (t & Ht & Hwt); [eapply no_bigint_child; [exact Hb|exact Hin]|eapply units_child; [exact Hu|exact Hin]|].
        cbn [fst snd]. rewrite Ht. cbn [obind]. eauto. }
      cbn [obind]. eexists. split; [reflexivity|]. unfold write_list. rewrite commas_joined.
      apply wr_spelled; [intros j [= <-]; exact E|]. apply (sl_object show (find_id refs) i l texts).
      assert (Hk : Forall (fun kv => Forall unit16 (fst kv)) l) by exact (Hu _ (sub_refl _)).
      clear -Hw Hk. induction Hw as [|[k x] t l ts (u & -> & Hu) H IH]; [constructor|]. cbn [fst snd] in *. inversion Hk; subst.
      apply (mw_cons show (find_id refs) k (js_string k) x l u ts); auto. apply js_string_quoted. assumption.
Qed.

Lemma with_refs_fuel refs a : with_refs show refs a <> NoFuel.
Proof.
  induction a as [ |b|f|s|b|i l IH|i l IH] using any_rect_all; try discriminate; cbn [with_refs].
  - destruct (find_id refs i); [discriminate|]. pose proof (omap_fuel _ l IH).
    destruct (omap _ l); cbn [obind]; congruence.
  - destruct (find_id refs i); [discriminate|].
    assert (H : omap (fun kv => let! t := with_refs show refs (snd kv) in Ok (js_string (fst kv) ++ 58 :: t)) l <> NoFuel).
    { apply omap_fuel. intros [k x] Hx. cbn [fst snd]. assert (Hin : In x (map snd l)) by (apply in_map_iff; exists (k, x); auto).
      specialize (IH x Hin). destruct (with_refs show refs x); cbn [obind]; congruence. }
    destruct (omap _ l); cbn [obind]; congruence.
Qed.

(** A bigint that is not hidden behind a name is not written. *)
Lemma bigint_panics refs a b : sub a (ABigint b) ->
  (forall c i, sub a c -> ident_of c = Some i -> find_id refs i = None) ->
  with_refs show refs a = Panic.
Proof.
  induction a as [ |x|f|s|x|i l IH|i l IH] using any_rect_all; intros H Hn;
    try (exfalso; inversion H; subst; contradiction); [reflexivity| |].
  - cbn [with_refs]. rewrite (Hn _ i (sub_refl _) eq_refl).
    inversion H as [|? c ? Hin Hs]; subst. rewrite (omap_panic _ l c); [reflexivity| |exact Hin|].
    + intros. apply with_refs_fuel.
    + apply IH; auto. intros d j Hd Hj. eapply Hn; [eapply sub_child; cbn; eassumption|exact Hj].
  - cbn [with_refs]. rewrite (Hn _ i (sub_refl _) eq_refl).
    inversion H as [|? c ? Hin Hs]; subst. cbn [children] in Hin. pose proof Hin as Hin'. apply in_map_iff in Hin' as ([k x] & Hx & Hkx).
    cbn [snd] in Hx. subst x. rewrite (omap_panic _ l (k, c)); [reflexivity| |exact Hkx|].
    + intros [k' x] _. cbn [fst snd]. pose proof (with_refs_fuel refs x). destruct (with_refs show refs x); cbn [obind]; congruence.
    + cbn [fst snd]. rewrite IH; auto. intros d j Hd Hj. eapply Hn; [eapply sub_child; cbn; eassumption|exact Hj].
Qed.

(** Only the names of the blocks inside matter. *)
Scheme written_mind := Minimality for written Sort Prop
  with spelled_mind := Minimality for spelled Sort Prop
  with elems_mind := Minimality for elems_written Sort Prop
  with members_mind := Minimality for members_written Sort Prop.
Combined Scheme written_mutind from written_mind, spelled_mind, elems_mind, members_mind.

Lemma written_ext s1 s2 :
  (forall a t, written show s1 a t -> (forall b i, sub a b -> ident_of b = Some i -> s1 i = s2 i) -> written show s2 a t)
  /\ (forall a t, spelled show s1 a t -> (forall b i, inside a b -> ident_of b = Some i -> s1 i = s2 i) -> spelled show s2 a t)
  /\ (forall l ts, elems_written show s1 l ts ->
      (forall c b i, In c l -> sub c b -> ident_of b = Some i -> s1 i = s2 i) -> elems_written show s2 l ts)
  /\ (forall l ts, members_written show s1 l ts ->
      (forall c b i, In c (map snd l) -> sub c b -> ident_of b = Some i -> s1 i = s2 i) -> members_written show s2 l ts).
Proof.
  apply written_mutind; intros; try (constructor; fail).
  - eapply wr_name; [eassumption|]. rewrite <- H0. symmetry. eapply H1; [apply sub_refl|assumption].
  - apply wr_spelled; [|apply H1; intros b i (c & Hc & Hs) Hi; eapply H2; [eapply sub_child; eassumption|exact Hi]].
    intros i Hi. rewrite <- (H i Hi). symmetry. eapply H2; [apply sub_refl|assumption].
  - constructor. assumption.
  - apply sl_array. apply H0. intros c b j Hc Hs Hj. eapply H1; [exists c; split; eassumption|exact Hj].
  - apply sl_object. apply H0. intros c b j Hc Hs Hj. eapply H1; [exists c; split; eassumption|exact Hj].
  - constructor; [apply H0|apply H2]; intros; eapply H3; cbn; eauto.
  - constructor; [assumption|apply H1|apply H3]; intros; eapply H4; cbn; eauto.
Qed.

(** ** Reading the text *)
Definition delimited (g : Z -> bool) : Prop := g 44 = true /\ g 93 = true /\ g 125 = true /\ g 59 = true.
Definition appends (text : list Z) (toks : list token) : Prop :=
  exists g, delimited g /\ forall p tp, lexseq p tp false TokenizerGrammar.any -> lexseq (p ++ text) (tp ++ toks) false g.

Lemma lex_tok p tp f w t g : lexseq p tp false f -> lexeme w t g -> next_ok f w -> lexseq (p ++ w) (tp ++ [t]) false g.
Proof. intros H1 H2 H3. exact (ls_lexeme p tp false f w t g H1 H2 H3). Qed.
Lemma lex_char p tp f c t : lexseq p tp false f -> punctuator c = Some t -> 0 <= c -> f c = true ->
  lexseq (p ++ [c]) (tp ++ [t]) false TokenizerGrammar.any.
Proof. intros H1 H2 H3 H4. eapply lex_tok; [exact H1|apply lex_punct; exact H2|]. cbn. auto. Qed.

Lemma appends_lexeme w t g c r : w = c :: r -> 0 <= c -> delimited g -> lexeme w t g -> appends w [t].
Proof.
  intros -> Hc Hg H. exists g. split; [exact Hg|]. intros p tp Hp. eapply lex_tok; [exact Hp|exact H|]. cbn. auto.
Qed.
Lemma delimited_any : delimited TokenizerGrammar.any.
Proof. repeat split. Qed.
Lemma delimited_terminal : delimited is_terminal.
Proof. repeat split. Qed.
Lemma delimited_ident : delimited (fun x => negb (ident_part x)).
Proof. repeat split. Qed.

Lemma appends_nil : appends [] [].
Proof. exists TokenizerGrammar.any. split; [apply delimited_any|]. intros. rewrite !app_nil_r. assumption. Qed.
(** [text c rest] *)
Lemma appends_then text toks c t rest rtoks : appends text toks -> punctuator c = Some t -> 0 <= c ->
  (c = 44 \/ c = 93 \/ c = 125 \/ c = 59) -> appends rest rtoks -> appends (text ++ c :: rest) (toks ++ t :: rtoks).
Proof.
  intros (g & (G1 & G2 & G3 & G4) & H) Hc H0 Hor (g' & Hg' & H'). exists g'. split; [exact Hg'|]. intros p tp Hp.
  specialize (H p tp Hp).
  assert (Hl : lexseq ((p ++ text) ++ [c]) ((tp ++ toks) ++ [t]) false TokenizerGrammar.any).
  { eapply lex_char; [exact H|exact Hc|exact H0|]. destruct Hor as [->|[->|[->| ->]]]; assumption. }
  apply H' in Hl. rewrite <- !app_assoc in Hl. exact Hl.
Qed.
(** [c rest] *)
Lemma appends_before c t rest rtoks : punctuator c = Some t -> 0 <= c -> appends rest rtoks -> appends (c :: rest) (t :: rtoks).
Proof.
  intros Hc H0 (g' & Hg' & H'). exists g'. split; [exact Hg'|]. intros p tp Hp.
  assert (Hl : lexseq (p ++ [c]) (tp ++ [t]) false TokenizerGrammar.any) by (eapply lex_char; eauto; reflexivity).
  apply H' in Hl. rewrite <- !app_assoc in Hl. exact Hl.
Qed.
Lemma appends_string s text rest rtoks : bmp s -> quoted s text -> appends rest rtoks -> appends (text ++ rest) (TString s :: rtoks).
Proof.
  intros Hs (body & -> & Hq) (g' & Hg' & H'). exists g'. split; [exact Hg'|]. intros p tp Hp.
  assert (Hl : lexseq (p ++ 34 :: body ++ [34]) (tp ++ [TString s]) false TokenizerGrammar.any).
  { eapply lex_tok; [exact Hp|apply lex_string, (unit_spells_bmp _ _ Hq Hs)|]. cbn. split; [lia|reflexivity]. }
  apply H' in Hl. rewrite <- !app_assoc in Hl. exact Hl.
Qed.

Lemma appends_word w : w = txt "null" \/ w = txt "true" \/ w = txt "false" -> appends w [TId w].
Proof.
  intros H. assert (E : exists c r, w = c :: r /\ 0 <= c /\ lexeme w (TId w) (fun x => negb (ident_part x))).
  { destruct H as [->|[->| ->]]; eexists; eexists; (split; [reflexivity|split; [lia|]]); apply lex_ident; try reflexivity;
      repeat constructor. }
  destruct E as (c & r & E & H0 & Hl). eapply appends_lexeme; [exact E|exact H0|apply delimited_ident|exact Hl].
Qed.
Lemma const_name_lexeme n : lexeme (name_text n) (TId (name_text n)) (fun x => negb (ident_part x)).
Proof.
  apply lex_ident; [reflexivity|]. eapply Forall_impl; [|apply (digits_form (S n) (Z.of_nat n)); lia].
  cbn. intros c Hc. unfold ident_part, ident_start, is_digit in *. lia.
Qed.
Lemma appends_name n : appends (name_text n) [TId (name_text n)].
Proof. eapply appends_lexeme; [reflexivity|lia|apply delimited_ident|apply const_name_lexeme]. Qed.

Lemma number_head n : number_ok n -> exists c r, number_text n = c :: r /\ 0 <= c.
Proof.
  intros (Hi & _). unfold number_text. destruct (nl_neg n); [eexists; eexists; split; [reflexivity|lia]|].
  destruct Hi as [Ha Hi]. destruct (nl_int n) as [|c l]; [exfalso; destruct Hi as [|(? & ? & ? & _)]; discriminate|].
  exists c. eexists. split; [reflexivity|]. inversion Ha as [|? ? Hc _]. unfold is_digit in Hc. lia.
Qed.
Lemma appends_number f : number_shown show f -> appends (show f) [TNumber f].
Proof.
  intros (n & Hn & He & -> & Hx & Hm). destruct (number_head n Hn) as (c & r & E & H0).
  assert (Hev : exp_value n = 0) by (unfold exp_value; rewrite He; reflexivity).
  assert (Hlen : Z.of_nat (List.length (nl_frac n)) <= 27) by (unfold number_exp10 in Hx; lia).
  eapply appends_lexeme; [exact E|exact H0|apply delimited_terminal|].
  destruct Hm as [(Hm & Hs & ->)|(Hm & Hf)].
  - apply lex_zero; auto; lia.
  - apply lex_number; auto; lia.
Qed.

Lemma const_name_not s n : s = txt "null" \/ s = txt "true" \/ s = txt "false" -> name_text n <> s.
Proof. intros [->|[->| ->]]; discriminate. Qed.

Lemma lookup_rev (m : list (list Z * tree)) k : StronglySorted (fun a b => str_cmp (fst a) (fst b) = Lt) m ->
  lookup m k = lookup (rev m) k.
Proof.
  induction 1 as [|[x v] m H IH Hall]; [reflexivity|]. cbn [rev]. rewrite lookup_app, <- IH. cbn [lookup].
  destruct (list_eq_dec Z.eq_dec k x) as [->|]; [|destruct (lookup m k); reflexivity].
  destruct (lookup m x) as [t|] eqn:E; [|reflexivity]. exfalso. apply lookup_in in E.
  rewrite Forall_forall in Hall. apply Hall in E. cbn [fst] in E. rewrite str_cmp_refl in E. discriminate.
Qed.
Lemma is_object_sorted (m : list (list Z * tree)) : StronglySorted (fun a b => text_before (fst a) (fst b)) m ->
  Forall (fun kv => bmp (fst kv)) m -> is_object m m.
Proof.
  intros Hs Hb. exists m. split; [exact Hs|]. split; [intros; apply lookup_rev, sorted_text, Hs|].
  clear Hs. induction Hb as [|[k v] m Hk H IH]; [reflexivity|]. cbn [map fst snd] in *. rewrite <- IH, <- utf16_units, bmp_utf16 by exact Hk. reflexivity.
Qed.

Lemma written_reads share env :
  (forall a t, written show share a t -> readable show (erase a) ->
    (forall b i n, sub a b -> ident_of b = Some i -> share i = Some n -> lookup env (name_text n) = Some (erase b)) ->
    exists toks, js_value env toks (erase a) /\ appends t toks)
  /\ (forall a t, spelled show share a t -> readable show (erase a) ->
    (forall b i n, inside a b -> ident_of b = Some i -> share i = Some n -> lookup env (name_text n) = Some (erase b)) ->
    exists toks, js_value env toks (erase a) /\ appends t toks)
  /\ (forall l ts, elems_written show share l ts -> Forall (readable show) (map erase l) ->
    (forall c b i n, In c l -> sub c b -> ident_of b = Some i -> share i = Some n -> lookup env (name_text n) = Some (erase b)) ->
    exists toks, js_elems env toks (map erase l) /\ appends (joined ts) toks)
  /\ (forall l ts, members_written show share l ts -> Forall (fun kv => bmp (fst kv) /\ readable show (erase (snd kv))) l ->
    (forall c b i n, In c (map snd l) -> sub c b -> ident_of b = Some i -> share i = Some n -> lookup env (name_text n) = Some (erase b)) ->
    exists toks, js_members env toks (map (fun kv => (fst kv, erase (snd kv))) l) /\ appends (joined ts) toks).
Proof.
  apply written_mutind.
  - intros a i n Hi Hs Hr Hn. exists [TId (name_text n)]. split; [|apply appends_name].
    apply jsv_scalar, sc_name; try (apply const_name_not; auto; fail). eapply Hn; [apply sub_refl|exact Hi|exact Hs].
  - intros a text Hs _ IH Hr Hn. apply IH; [exact Hr|]. intros b i n (c & Hc & Hb) Hi. eapply Hn; [|exact Hi].
    eapply sub_child; eassumption.
  - intros _ _. exists [TId (txt "null")]. split; [apply jsv_scalar; constructor|apply appends_word; auto].
  - intros _ _. exists [TId (txt "true")]. split; [apply jsv_scalar; constructor|apply appends_word; auto].
  - intros _ _. exists [TId (txt "false")]. split; [apply jsv_scalar; constructor|apply appends_word; auto].
  - intros f Hr _. exists [TNumber f]. split; [apply jsv_scalar; constructor|]. inversion Hr; subst. apply appends_number; assumption.
  - intros s t Hq Hr _. inversion Hr; subst. exists [TString s]. split.
    + apply jsv_scalar. cbn [erase]. rewrite <- (bmp_utf16 s) at 2 by assumption. rewrite utf16_units. constructor.
    + rewrite <- (app_nil_r t). apply appends_string; [assumption|exact Hq|apply appends_nil].
  - intros i l texts _ IH Hr Hn. inversion Hr; subst. destruct IH as (toks & Hj & Ha); [assumption| |].
    { intros c b j n Hc Hs. apply Hn. exists c. auto. }
    exists (TArrayBegin :: toks ++ [TArrayEnd]). split; [cbn [erase]; constructor; exact Hj|].
    apply appends_before; [reflexivity|lia|]. apply appends_then; auto using appends_nil; lia.
  - intros i l texts _ IH Hr Hn. inversion Hr as [| | | | |l' Hall Hsort]; subst. destruct IH as (toks & Hj & Ha).
    { rewrite Forall_map in Hall. exact Hall. }
    { intros c b j n Hc Hs. apply Hn. exists c. auto. }
    exists (TObjectBegin :: toks ++ [TObjectEnd]). split.
    + cbn [erase]. econstructor; [exact Hj|]. apply is_object_sorted; [exact Hsort|].
      eapply Forall_impl; [|exact Hall]. intros kv [H _]. exact H.
    + apply appends_before; [reflexivity|lia|]. apply appends_then; auto using appends_nil; lia.
  - intros _ _. exists []. split; [constructor|apply appends_nil].
  - intros a l t ts _ IHa Hl IHl Hr Hn. inversion Hr as [|? ? Hra Hrl]; subst.
    destruct IHa as (ta & Hja & Haa); [exact Hra|intros; eapply Hn; [left; reflexivity| | |]; eassumption|].
    destruct IHl as (tl & Hjl & Hal); [exact Hrl|intros; eapply Hn; [right; eassumption| | |]; eassumption|].
    inversion Hl; subst.
    + exists ta. split; [apply jse_last; exact Hja|rewrite joined_one; exact Haa].
    + exists (ta ++ TComma :: tl). split; [cbn [map]; apply jse_cons; assumption|].
      rewrite joined_more. apply appends_then; auto; lia.
  - intros _ _. exists []. split; [constructor|apply appends_nil].
  - intros k kt a l t ts Hq _ IHa Hl IHl Hr Hn. inversion Hr as [|? ? [Hk Hra] Hrl]; subst. cbn [fst snd] in *.
    destruct IHa as (ta & Hja & Haa); [exact Hra|intros; eapply Hn; [left; reflexivity| | |]; eassumption|].
    destruct IHl as (tl & Hjl & Hal); [exact Hrl|intros; eapply Hn; [right; eassumption| | |]; eassumption|].
    inversion Hl; subst.
    + exists (TString k :: TColon :: ta). split; [apply jsm_last; exact Hja|].
      rewrite joined_one. apply appends_string; [exact Hk|exact Hq|]. cbn [app]. apply appends_before; [reflexivity|lia|exact Haa].
    + exists (TString k :: TColon :: ta ++ TComma :: tl). split; [cbn [map fst snd]; apply jsm_cons; assumption|].
      rewrite joined_more, <- app_assoc. apply appends_string; [exact Hk|exact Hq|]. cbn [app].
      apply appends_before; [reflexivity|lia|]. apply appends_then; auto; lia.
Qed.

(** A text that is only lexemes is tokenized to their tokens. *)
Lemma lexseq_tokens text toks g : lexseq text toks false g -> ev (fun fuel => tokenize fuel text) toks.
Proof.
  intros H. destruct (lexseq_reads text toks false g H) as (f0 & Hr). exists f0. intros fuel Hf.
  specialize (Hr fuel [] Hf I). rewrite app_nil_r in Hr. rewrite Hr. cbn [TokenizerGrammar.pending].
  rewrite app_nil_r. change (tokenize fuel []) with (Ok (@nil token)). unfold prepend_list. cbn [obind]. rewrite app_nil_r. reflexivity.
Qed.

(** ** JSON *)
Scheme js_value_mind := Minimality for js_value Sort Prop
  with js_elems_mind := Minimality for js_elems Sort Prop
  with js_members_mind := Minimality for js_members Sort Prop.
Combined Scheme js_mutind from js_value_mind, js_elems_mind, js_members_mind.
Lemma js_json : (forall toks t, js_value [] toks t -> json_value toks t)
  /\ (forall toks ts, js_elems [] toks ts -> json_elems toks ts)
  /\ (forall toks kvs, js_members [] toks kvs -> json_members toks kvs).
Proof. apply js_mutind; intros; econstructor; eassumption. Qed.
End Show.
