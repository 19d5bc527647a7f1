(** A JavaScript text denotes at most one value. *)
From Coq Require Import ZArith List Bool String Lia.
From Coq Require Import ZifyBool ZifyNat.
From Coq Require Import Reals Lra.
From Flocq Require Import Core.Core IEEE754.BinarySingleNaN IEEE754.Binary IEEE754.Bits.
From Verif Require Import Outcome LimbsModel BigIntModel JsBigintModel BigFloatModel BigFloatSpec RangeMapSpec TokenizerModel TokenizerSpec ValueModel
  ParserModel ParserSpec ParserProofs SerializerModel SerializerSpec SerializerProofs SerializerDjs SerializerRead JsTextSpec.
Import ListNotations.
Open Scope Z_scope.

(** ** Nearest numbers are unique *)
Lemma nearest_unique f g s x : f64_nearest f s x -> f64_nearest g s x -> f = g.
Proof.
  intros (Hf & F1 & F2) (Hg & G1 & G2).
  assert (E : b64_of_bits f = b64_of_bits g).
  { destruct (Rlt_or_le (rne64 x) (bpow radix2 1024)) as [H|H].
    - destruct (F1 H) as (A1 & A2 & A3), (G1 H) as (B1 & B2 & B3). apply B2R_Bsign_inj; congruence.
    - rewrite (F2 H), (G2 H). reflexivity. }
  assert (I : forall z, 0 <= z < 2 ^ 64 -> bits_of_b64 (b64_of_bits z) = z).
  { intros z Hz. apply (bits_of_binary_float_of_bits 52 11); exact Hz. }
  rewrite <- (I f Hf), <- (I g Hg), E. reflexivity.
Qed.

(** ** Splitting texts *)
Lemma span_eq (P : Z -> Prop) (a b x y : list Z) : Forall P a -> Forall P b ->
  (forall c r, x = c :: r -> ~ P c) -> (forall c r, y = c :: r -> ~ P c) -> a ++ x = b ++ y -> a = b /\ x = y.
Proof.
  intros Ha Hb Hx Hy. revert b Hb. induction Ha as [|c a Hc Ha IH]; intros [|d b] Hb E; cbn [app] in E.
  - auto.
  - exfalso. apply (Hx d (b ++ y) E). inversion Hb; assumption.
  - exfalso. apply (Hy c (a ++ x) (eq_sym E)). exact Hc.
  - injection E as -> E. inversion Hb; subst. destruct (IH b) as [-> ->]; auto.
Qed.

Definition stop (x : list Z) : Prop := forall c r, x = c :: r -> In c [44; 93; 125; 59].

Lemma spells_unique a s : unit_spells a s -> forall b u x y, unit_spells b u -> a ++ 34 :: x = b ++ 34 :: y -> a = b /\ s = u /\ x = y.
Proof.
  induction 1 as [|c a s Hc H34 H92 H IH|c v a s Hv H IH|c1 c2 c3 c4 v1 v2 v3 v4 a s H1 H2 H3 H4 H IH]; intros b u x y Hb E;
    inversion Hb as [|d b' u' Hd D34 D92 Hb'|d w b' u' Hw Hb'|d1 d2 d3 d4 w1 w2 w3 w4 b' u' D1 D2 D3 D4 Hb']; subst;
    cbn [app] in E; try (injection E; intros; subst; congruence); try (injection E; intros; subst; discriminate).
  - injection E as ->. auto.
  - injection E as -> E. destruct (IH _ _ _ _ Hb' E) as (-> & -> & ->). auto.
  - injection E as -> E. destruct (IH _ _ _ _ Hb' E) as (-> & -> & ->). rewrite Hv in Hw. injection Hw as ->. auto.
  - injection E as -> -> -> -> E. destruct (IH _ _ _ _ Hb' E) as (-> & -> & ->). repeat split; congruence.
Qed.
Lemma quoted_unique s t u v x y : quoted s t -> quoted u v -> t ++ x = v ++ y -> t = v /\ s = u /\ x = y.
Proof.
  intros (a & -> & Ha) (b & -> & Hb) E. cbn [app] in E. rewrite <- !app_assoc in E. injection E as E.
  destruct (spells_unique a s Ha b u x y Hb E) as (-> & -> & ->). auto.
Qed.

(** ** Number literals *)
Definition number_char (c : Z) : Prop := 48 <= c <= 57 \/ In c [43; 45; 46; 69; 101].
Lemma digits_chars l : all_digits l -> Forall number_char l.
Proof. intros H. eapply Forall_impl; [|exact H]. intros c Hc. left. unfold is_digit in Hc. lia. Qed.
Lemma int_digits l : int_part l -> all_digits l /\ l <> [].
Proof. intros [H [->|(c & r & -> & _)]]; (split; [exact H|discriminate]). Qed.
Lemma number_chars n : number_ok n -> Forall number_char (number_text n).
Proof.
  intros (Hi & Hf & He). unfold number_text. apply int_digits in Hi as [Hi _]. repeat (apply Forall_app; split).
  - destruct (nl_neg n); [|constructor]. constructor; [right; cbn; auto|constructor].
  - apply digits_chars, Hi.
  - destruct (nl_frac n); [constructor|]. constructor; [right; cbn; auto|apply digits_chars, Hf].
  - destruct (nl_exp n) as [[[l sg] ds]|]; [|constructor]. destruct He as (Hl & Hs & _ & Hd).
    constructor; [right; cbn; lia|]. apply Forall_app. split; [|apply digits_chars, Hd].
    destruct Hs as [->|[->| ->]]; [constructor| |]; (constructor; [right; cbn; auto|constructor]).
Qed.
Lemma number_head n : number_ok n -> exists c r, number_text n = c :: r /\ (c = 45 \/ 48 <= c <= 57).
Proof.
  intros (Hi & _). apply int_digits in Hi as [Hi Hn]. unfold number_text. destruct (nl_neg n); cbn [app]; [eexists _, _; eauto|].
  destruct (nl_int n) as [|c r]; [congruence|]. inversion Hi; subst. cbn [app]. eexists _, _. split; [reflexivity|].
  unfold is_digit in *. right. lia.
Qed.
Definition fracp (l : list Z) : list Z := match l with [] => [] | _ => 46 :: l end.
Definition expp (e : option (Z * list Z * list Z)) : list Z := match e with None => [] | Some (l, sg, ds) => l :: sg ++ ds end.
Definition exp_ok (e : option (Z * list Z * list Z)) : Prop :=
  match e with None => True | Some (l, sg, ds) => (l = 101 \/ l = 69) /\ (sg = [] \/ sg = [43] \/ sg = [45]) /\ ds <> [] /\ all_digits ds end.
Lemma number_parts n : number_text n = (if nl_neg n then [45] else []) ++ nl_int n ++ fracp (nl_frac n) ++ expp (nl_exp n).
Proof. unfold number_text, fracp, expp. destruct (nl_frac n); reflexivity. Qed.
Lemma expp_head e c r : exp_ok e -> expp e = c :: r -> c = 101 \/ c = 69.
Proof. destruct e as [[[l sg] ds]|]; cbn; [|discriminate]. intros H [= <- _]. tauto. Qed.
Lemma rest_head l e c r : exp_ok e -> fracp l ++ expp e = c :: r -> is_digit c = true -> False.
Proof.
  intros He. destruct l as [|d l]; cbn [fracp app]; intros E Hd.
  - destruct (expp_head e c r He E) as [-> | ->]; discriminate.
  - injection E as <- _. discriminate.
Qed.
Lemma number_inj n m : number_ok n -> number_ok m -> number_text n = number_text m -> n = m.
Proof.
  intros (Hi & Hf & He) (Ki & Kf & Ke). rewrite !number_parts. destruct n as [n1 n2 n3 n4], m as [m1 m2 m3 m4].
  cbn [nl_neg nl_int nl_frac nl_exp] in *. apply int_digits in Hi as [Hi Hn]. apply int_digits in Ki as [Ki Kn].
  fold (exp_ok n4) in He. fold (exp_ok m4) in Ke. intros E.
  assert (E1 : n1 = m1 /\ n2 ++ fracp n3 ++ expp n4 = m2 ++ fracp m3 ++ expp m4).
  { destruct n1, m1; cbn [app] in E; [injection E as E; split; [reflexivity|exact E]| | |split; [reflexivity|exact E]]; exfalso.
    - destruct m2 as [|c m2]; [congruence|]. cbn [app] in E. injection E as <- _. inversion Ki; subst. unfold is_digit in *. lia.
    - destruct n2 as [|c n2]; [congruence|]. cbn [app] in E. injection E as -> _. inversion Hi; subst. unfold is_digit in *. lia. }
  destruct E1 as [-> E1]. clear E.
  apply (span_eq (fun c => is_digit c = true)) in E1 as [-> E2];
    [|exact Hi|exact Ki|intros c r E Hd; exact (rest_head _ _ _ _ He E Hd)|intros c r E Hd; exact (rest_head _ _ _ _ Ke E Hd)].
  assert (E3 : n3 = m3 /\ expp n4 = expp m4).
  { destruct n3 as [|c n3], m3 as [|d m3]; cbn [fracp app] in E2.
    - auto.
    - exfalso. destruct (expp_head _ _ _ He E2); discriminate.
    - exfalso. symmetry in E2. destruct (expp_head _ _ _ Ke E2); discriminate.
    - injection E2 as <- E2. inversion Hf; subst. inversion Kf; subst.
      apply (span_eq (fun c => is_digit c = true)) in E2 as [-> E2]; auto.
      + intros x r Ex. destruct (expp_head _ _ _ He Ex) as [-> | ->]; discriminate.
      + intros x r Ex. destruct (expp_head _ _ _ Ke Ex) as [-> | ->]; discriminate. }
  destruct E3 as [-> E3]. f_equal.
  destruct n4 as [[[l sg] ds]|], m4 as [[[l' sg'] ds']|]; cbn [expp] in E3; try discriminate; [|reflexivity]. injection E3 as -> E3.
  destruct He as (_ & Hs & Hd & Hds), Ke as (_ & Ks & Kd & Kds).
  destruct Hs as [->|[->| ->]], Ks as [->|[->| ->]]; cbn [app] in E3; try discriminate; try (injection E3 as E3); subst; try reflexivity; exfalso.
  all: try (inversion Kds; subst; discriminate).
  all: try (inversion Hds; subst; discriminate).
Qed.

(** ** Values *)
Definition flat (texts : list (list Z)) : list Z := flat_map (fun x => 44 :: x) texts.
Lemma flat_joined t texts : flat (t :: texts) = 44 :: joined (t :: texts).
Proof. reflexivity. Qed.

(** The first character tells the kind of a value. *)
Definition kind (c : Z) : Z :=
  if c =? 110 then 0 else if c =? 116 then 1 else if c =? 102 then 2 else if c =? 34 then 4 else if c =? 95 then 5
  else if c =? 91 then 6 else if c =? 123 then 7 else 3.
Lemma js_head env a t : js_text env a t -> exists c r, a = c :: r /\ ~ In c [44; 93; 125; 59; 58; 61]
  /\ match kind c with
     | 0 => a = txt "null" /\ t = VNull
     | 1 => a = txt "true" /\ t = VBool true
     | 2 => a = txt "false" /\ t = VBool false
     | 3 => exists n f, a = number_text n /\ t = VNumber f /\ number_ok n /\ literal_value n f
     | 4 => exists s, quoted s a /\ t = VString s
     | 5 => js_name a /\ lookup env a = Some t
     | 6 => exists texts ts, a = [91] ++ joined texts ++ [93] /\ t = VArray ts /\ js_items env texts ts
     | _ => exists texts kvs, a = [123] ++ joined texts ++ [125] /\ t = VObject kvs /\ js_pairs env texts kvs
     end.
Proof.
  intros H. destruct H as [ | | |n f Hok Hv|s t Hq|x t Hx Hl|texts ts Hi|texts kvs Hp Hn].
  - exists 110, (txt "ull"). split; [reflexivity|]. split; [cbn; lia|]. split; reflexivity.
  - exists 116, (txt "rue"). split; [reflexivity|]. split; [cbn; lia|]. split; reflexivity.
  - exists 102, (txt "alse"). split; [reflexivity|]. split; [cbn; lia|]. split; reflexivity.
  - destruct (number_head n Hok) as (c & r & E & Hc). exists c, r. split; [exact E|]. split; [cbn; lia|].
    assert (K : kind c = 3).
    { unfold kind. repeat match goal with |- context [c =? ?d] => destruct (Z.eqb_spec c d); [lia|] end. reflexivity. }
    rewrite K. cbv iota. eauto 10.
  - pose proof Hq as (body & -> & Hb). eexists _, _. split; [reflexivity|]. split; [cbn; lia|]. change (kind 34) with 4. cbv iota. eauto.
  - pose proof Hx as (r & -> & Hr). eexists _, _. split; [reflexivity|]. split; [cbn; lia|]. change (kind 95) with 5. cbv iota. auto.
  - eexists _, _. split; [reflexivity|]. split; [cbn; lia|]. change (kind 91) with 6. cbv iota. eauto 10.
  - eexists _, _. split; [reflexivity|]. split; [cbn; lia|]. change (kind 123) with 7. cbv iota. eauto 10.
Qed.

Lemma stop_name (P : Z -> Prop) : (forall c, P c -> ~ In c [44; 93; 125; 59]) -> forall a b x y, Forall P a -> Forall P b ->
  stop x -> stop y -> a ++ x = b ++ y -> a = b /\ x = y.
Proof.
  intros HP a b x y Ha Hb Hx Hy. apply (span_eq P); auto.
  - intros c r E Hc. exact (HP c Hc (Hx c r E)).
  - intros c r E Hc. exact (HP c Hc (Hy c r E)).
Qed.
Lemma name_chars x : js_name x -> Forall (fun c => c = 95 \/ 48 <= c <= 57) x.
Proof. intros (r & -> & H). constructor; [auto|]. eapply Forall_impl; [|exact H]. cbn. auto. Qed.

Lemma text_unique env :
  (forall a t, js_text env a t -> forall b u x y, js_text env b u -> stop x -> stop y -> a ++ x = b ++ y -> a = b /\ t = u /\ x = y)
  /\ (forall texts ts, js_items env texts ts -> forall texts' ts' x y, js_items env texts' ts' ->
       flat texts ++ 93 :: x = flat texts' ++ 93 :: y -> texts = texts' /\ ts = ts' /\ x = y)
  /\ (forall texts kvs, js_pairs env texts kvs -> forall texts' kvs' x y, js_pairs env texts' kvs' ->
       flat texts ++ 125 :: x = flat texts' ++ 125 :: y -> texts = texts' /\ kvs = kvs' /\ x = y).
Proof.
  assert (Hstop : forall l c x, In c [44; 93; 125; 59] -> stop (flat l ++ c :: x)).
  { intros [|t l] c x Hc; intros d r E; cbn [flat flat_map app] in E; injection E as <- _; [exact Hc|left; reflexivity]. }
  assert (Hsame : forall a b c r (x y : list Z), a = c :: r -> a ++ x = b ++ y -> forall d r', b = d :: r' -> d = c).
  { intros a b c r x y -> E d r' ->. cbn [app] in E. injection E as -> _. reflexivity. }
  (* a word *)
  assert (Hword : forall w t c r, w = c :: r -> (forall u, js_text env (c :: r) u -> u = t) ->
    (forall b u, js_text env b u -> forall r', b = c :: r' -> b = w) ->
    forall b u x y, js_text env b u -> w ++ x = b ++ y -> w = b /\ t = u /\ x = y).
  { intros w t c r Ew Ht Hu b u x y Hb E. destruct (js_head env b u Hb) as (d & r' & Eb & _).
    assert (d = c) by (eapply Hsame; eassumption). subst d.
    assert (Ebw : b = w) by (eapply Hu; eassumption). rewrite Ebw in *. apply app_inv_head in E. rewrite Ew in Hb. symmetry in Ebw. pose proof (eq_sym (Ht u Hb)). auto. }
  apply js_text_mutind.
  - intros b u x y Hb _ _. eapply Hword; [reflexivity| | |exact Hb].
    + intros v Hv. destruct (js_head env _ v Hv) as (c & r & [= <- <-] & _ & H). cbn in H. tauto.
    + intros b' u' Hb' r' Er. destruct (js_head env _ _ Hb') as (c & r & E & _ & H). rewrite E in Er. injection Er as -> _. cbn in H. tauto.
  - intros b u x y Hb _ _. eapply Hword; [reflexivity| | |exact Hb].
    + intros v Hv. destruct (js_head env _ v Hv) as (c & r & [= <- <-] & _ & H). cbn in H. tauto.
    + intros b' u' Hb' r' Er. destruct (js_head env _ _ Hb') as (c & r & E & _ & H). rewrite E in Er. injection Er as -> _. cbn in H. tauto.
  - intros b u x y Hb _ _. eapply Hword; [reflexivity| | |exact Hb].
    + intros v Hv. destruct (js_head env _ v Hv) as (c & r & [= <- <-] & _ & H). cbn in H. tauto.
    + intros b' u' Hb' r' Er. destruct (js_head env _ _ Hb') as (c & r & E & _ & H). rewrite E in Er. injection Er as -> _. cbn in H. tauto.
  - intros n f Hok Hv b u x y Hb Hx Hy E. destruct (js_head env b u Hb) as (d & r' & Eb & _ & H).
    destruct (number_head n Hok) as (c & r & En & Hc). assert (d = c) by (eapply Hsame; eassumption). subst d.
    assert (K : kind c = 3).
    { unfold kind. repeat match goal with |- context [c =? ?d] => destruct (Z.eqb_spec c d); [lia|] end. reflexivity. }
    rewrite K in H. destruct H as (m & g & -> & -> & Kok & Kv).
    apply (stop_name number_char) in E as [E ->]; auto using number_chars.
    + apply number_inj in E; auto. subst m. split; [reflexivity|]. split; [|reflexivity]. f_equal. eapply nearest_unique; eassumption.
    + intros d [Hd|Hd]; cbn in Hd |- *; lia.
  - intros s t Hq b u x y Hb Hx Hy E. destruct (js_head env b u Hb) as (d & r' & Eb & _ & H).
    pose proof Hq as (body & Et & _). assert (d = 34) by (eapply Hsame; eassumption). subst d.
    change (kind 34) with 4 in H. destruct H as (s' & Hq' & ->). destruct (quoted_unique _ _ _ _ _ _ Hq Hq' E) as (-> & -> & ->). auto.
  - intros n t Hn Hl b u x y Hb Hx Hy E. destruct (js_head env b u Hb) as (d & r' & Eb & _ & H).
    pose proof Hn as (body & Et & _). assert (d = 95) by (eapply Hsame; eassumption). subst d.
    change (kind 95) with 5 in H. destruct H as (Hn' & Hl').
    apply (stop_name (fun c => c = 95 \/ 48 <= c <= 57)) in E as [-> ->]; auto using name_chars.
    + split; [reflexivity|]. split; [|reflexivity]. congruence.
    + intros c [->|Hc]; cbn; lia.
  - intros texts ts Hi IH b u x y Hb Hx Hy E. destruct (js_head env b u Hb) as (d & r' & Eb & _ & H).
    assert (d = 91) by (eapply Hsame; [reflexivity|exact E|exact Eb]). subst d.
    change (kind 91) with 6 in H. destruct H as (texts' & ts' & -> & -> & Hi'). rewrite <- !app_assoc in E. cbn [app] in E. injection E as E.
    assert (Hne : forall tx l z w, js_items env tx l -> joined tx ++ z <> 93 :: w \/ tx = []).
    { intros tx l z w Ht. destruct Ht as [|a t tx l Ha _]; [auto|left]. destruct (js_head env a t Ha) as (c & r & -> & Hc & _).
      cbn [joined app]. intros [= -> _]. apply Hc. cbn. auto. }
    destruct (IH texts' ts' x y Hi') as (-> & -> & ->); [|auto].
    destruct texts as [|t1 texts], texts' as [|t2 texts'].
    + exact E.
    + exfalso. destruct (Hne _ _ (93 :: y) x Hi') as [H|H]; [|discriminate]. apply H. symmetry. exact E.
    + exfalso. destruct (Hne _ _ (93 :: x) y Hi) as [H|H]; [|discriminate]. apply H. exact E.
    + rewrite !flat_joined. cbn [app]. f_equal. exact E.
  - intros texts kvs Hi IH Hnd b u x y Hb Hx Hy E. destruct (js_head env b u Hb) as (d & r' & Eb & _ & H).
    assert (d = 123) by (eapply Hsame; [reflexivity|exact E|exact Eb]). subst d.
    change (kind 123) with 7 in H. destruct H as (texts' & kvs' & -> & -> & Hi'). rewrite <- !app_assoc in E. cbn [app] in E. injection E as E.
    assert (Hne : forall tx l z w, js_pairs env tx l -> joined tx ++ z <> 125 :: w \/ tx = []).
    { intros tx l z w Ht. destruct Ht as [|k kt text t tx l _ (body & -> & _) _ _|kt text t tx l (body & -> & _) _ _]; [auto|left; discriminate|left; discriminate]. }
    destruct (IH texts' kvs' x y Hi') as (-> & -> & ->); [|auto].
    destruct texts as [|t1 texts], texts' as [|t2 texts'].
    + exact E.
    + exfalso. destruct (Hne _ _ (125 :: y) x Hi') as [H|H]; [|discriminate]. apply H. symmetry. exact E.
    + exfalso. destruct (Hne _ _ (125 :: x) y Hi) as [H|H]; [|discriminate]. apply H. exact E.
    + rewrite !flat_joined. cbn [app]. f_equal. exact E.
  - intros texts' ts' x y Hi E. destruct Hi as [|a t texts' ts' Ha Hi]; cbn [flat flat_map app] in E; [|discriminate].
    injection E as ->. auto.
  - intros a t texts ts Ha IHa Hi IHi texts' ts' x y Hi' E. destruct Hi' as [|b u texts' ts' Hb Hi']; cbn [flat flat_map app] in E; [discriminate|].
    injection E as E. rewrite <- !app_assoc in E.
    destruct (IHa b u _ _ Hb (Hstop texts 93 x ltac:(cbn; auto)) (Hstop texts' 93 y ltac:(cbn; auto)) E) as (-> & -> & E').
    destruct (IHi texts' ts' x y Hi' E') as (-> & -> & ->). auto.
  - intros texts' kvs' x y Hi E. destruct Hi; cbn [flat flat_map app] in E; try discriminate. injection E as ->. auto.
  - intros k kt a t texts kvs Hk Hq Ha IHa Hi IHi texts' kvs' x y Hi' E.
    destruct Hi' as [|k' kt' b u texts' kvs' Hk' Hq' Hb Hi'|kt' b u texts' kvs' Hq' Hb Hi']; cbn [flat flat_map app] in E; [discriminate| |];
      injection E as E; rewrite <- !app_assoc in E; cbn [app] in E;
      destruct (quoted_unique _ _ _ _ _ _ Hq Hq' E) as (-> & -> & E1); [|congruence]; injection E1 as E1; rewrite <- ?app_assoc in E1.
    destruct (IHa b u _ _ Hb (Hstop texts 125 x ltac:(cbn; auto)) (Hstop texts' 125 y ltac:(cbn; auto)) E1) as (-> & -> & E').
    destruct (IHi texts' kvs' x y Hi' E') as (-> & -> & ->). auto.
  - intros kt a t texts kvs Hq Ha IHa Hi IHi texts' kvs' x y Hi' E.
    destruct Hi' as [|k' kt' b u texts' kvs' Hk' Hq' Hb Hi'|kt' b u texts' kvs' Hq' Hb Hi']; cbn [flat flat_map app] in E; [discriminate| |];
      injection E as E; rewrite <- !app_assoc in E; cbn [app] in E;
      destruct (quoted_unique _ _ _ _ _ _ Hq Hq' E) as (-> & Ek & E1); [congruence|]; injection E1 as E1; rewrite <- ?app_assoc in E1.
    destruct (IHa b u _ _ Hb (Hstop texts 125 x ltac:(cbn; auto)) (Hstop texts' 125 y ltac:(cbn; auto)) E1) as (-> & -> & E').
    destruct (IHi texts' kvs' x y Hi' E') as (-> & -> & ->). auto.
Qed.

Lemma program_unique env cjs text t : js_program env cjs text t -> forall u, js_program env cjs text u -> t = u.
Proof.
  assert (Hnil : stop []) by (intros c r; discriminate).
  induction 1 as [env cjs n a v rest t Hx Hf Ha Hp IH|env a t Ha|env a t Ha]; intros u Hu.
  - inversion Hu as [env' cjs' n' a' v' rest' u' Hx' Hf' Ha' Hp' E0 E1 E|? ? ? ? E0 E1 E|? ? ? ? E0 E1 E]; subst; try (cbn in E; discriminate).
    apply (span_eq (fun c => c = 95 \/ 48 <= c <= 57)) in E as [-> E];
      [|apply name_chars; assumption|apply name_chars; assumption|intros c r [= <- _]; lia|intros c r [= <- _]; lia].
    injection E as E. assert (Hs : forall r, stop (59 :: r)) by (intros r c r' [= <- _]; cbn; auto).
    destruct (proj1 (text_unique env) a' v' Ha' a v _ _ Ha (Hs _) (Hs _) E) as (-> & -> & E'). injection E' as ->. apply IH. assumption.
  - inversion Hu as [env' cjs' n' a' v' rest' u' Hx' Hf' Ha' Hp' E0 E1 E|? ? ? Ha' E0 E1 E|]; subst; try (cbn in E; discriminate).
    destruct (proj1 (text_unique env) a u Ha' a t _ _ Ha Hnil Hnil eq_refl) as (_ & -> & _). reflexivity.
  - inversion Hu as [env' cjs' n' a' v' rest' u' Hx' Hf' Ha' Hp' E0 E1 E| |? ? ? Ha' E0 E1 E]; subst; try (cbn in E; discriminate).
    destruct (proj1 (text_unique env) a u Ha' a t _ _ Ha Hnil Hnil eq_refl) as (_ & -> & _). reflexivity.
Qed.
