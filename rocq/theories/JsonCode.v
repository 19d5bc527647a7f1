(** The JSON writer is injective: the text of a value, followed by a delimiter or the end,
    determines the value (nanvm-lib/src/serializer/to_json.rs). *)
From Coq Require Import ZArith List Bool String Lia.
From Verif Require Import Outcome VTac JsBigintModel TokenizerModel TokenizerSpec ValueModel ParserSpec SerializerModel SerializerSpec SerializerProofs.
Import ListNotations.
Open Scope Z_scope.

(** ** Strings *)
Definition unescape (t : list Z) : option (Z * list Z) :=
  match t with
  | [] => None
  | 34 :: _ => None
  | 92 :: 117 :: a :: b :: c :: d :: r =>
      match hex_value a, hex_value b, hex_value c, hex_value d with
      | Some a, Some b, Some c, Some d => Some (a * 4096 + b * 256 + c * 16 + d, r)
      | _, _, _, _ => None
      end
  | 92 :: x :: r => match short_escape x with Some y => Some (y, r) | None => None end
  | c :: r => Some (c, r)
  end.

Lemma unescape_char c r : unit16 c -> unescape (js_char c ++ r) = Some (c, r).
Proof.
  intros H. assert (He : unescape (js_escape c ++ r) = Some (c, r)).
  { unfold js_escape. cbn [app unescape]. rewrite !hex_u4, u4_value by exact H. reflexivity. }
  unfold js_char. unfold unit16 in H.
  destruct (Z.ltb_spec c 0x80); [|exact He].
  destruct (Z.eqb_spec c 92) as [->|H92]; [reflexivity|]. destruct (Z.eqb_spec c 34) as [->|H34]; [reflexivity|].
  destruct (Z.eqb_spec c 8) as [->|]; [reflexivity|]. destruct (Z.eqb_spec c 12) as [->|]; [reflexivity|].
  destruct (Z.eqb_spec c 10) as [->|]; [reflexivity|]. destruct (Z.eqb_spec c 13) as [->|]; [reflexivity|].
  destruct (Z.eqb_spec c 9) as [->|]; [reflexivity|]. destruct (Z.ltb_spec c 0x20); [exact He|].
  cbn [app unescape]. destruct c as [|c|c]; try lia.
  repeat (destruct c as [c|c|]; try reflexivity; try lia).
Qed.
Lemma js_string_code s u r1 r2 : Forall unit16 s -> Forall unit16 u -> js_string s ++ r1 = js_string u ++ r2 -> s = u /\ r1 = r2.
Proof.
  intros Hs Hu E. unfold js_string in E. cbn [app] in E. injection E as E. rewrite <- !app_assoc in E. cbn [app] in E.
  revert u Hu E. induction Hs as [|c s Hc Hs IH]; intros [|d u] Hu E; cbn [flat_map app] in E.
  - injection E as ->. auto.
  - apply (f_equal unescape) in E. inversion Hu; subst. rewrite <- app_assoc, unescape_char in E by assumption. discriminate.
  - apply (f_equal unescape) in E. rewrite <- app_assoc, unescape_char in E by assumption. discriminate.
  - apply (f_equal unescape) in E. inversion Hu; subst. rewrite <- !app_assoc, !unescape_char in E by assumption. injection E as -> E.
    destruct (IH u) as [-> ->]; auto.
Qed.

(** ** Values *)
Definition stops (c : Z) : Prop := c = 44 \/ c = 93 \/ c = 125.
Definition stop (r : list Z) : Prop := r = [] \/ exists c q, r = c :: q /\ stops c.
Definition starts (t : list Z) : Prop := exists c r, t = c :: r /\ ~ stops c.

Lemma starts_stop t r q : starts t -> stop r -> t ++ q <> r.
Proof. intros (c & t' & -> & Hc) [->|(d & r' & -> & Hd)] E; [discriminate|]. injection E as -> E. contradiction. Qed.

Lemma plain_code a b r1 r2 : Forall (fun c => ~ stops c) a -> Forall (fun c => ~ stops c) b -> stop r1 -> stop r2 -> a ++ r1 = b ++ r2 -> a = b /\ r1 = r2.
Proof.
  intros Ha. revert b. induction Ha as [|c a Hc Ha IH]; intros b Hb S1 S2 E.
  - destruct Hb as [|d b Hd Hb]; [auto|]. exfalso. symmetry in E. revert E. apply starts_stop; [exists d, b; auto|exact S1].
  - destruct Hb as [|d b Hd Hb]; [exfalso; revert E; apply starts_stop; [exists c, a; auto|exact S2]|].
    injection E as -> E. destruct (IH b Hb S1 S2 E) as [-> ->]. auto.
Qed.

Section Lists.
Context {A T : Type} (W : A -> outcome (list Z)) (E : A -> T) (good : A -> Prop).
Hypothesis Hstart : forall x t, W x = Ok t -> good x -> starts t.

Lemma commas_code close l : stops close -> close <> 44 -> Forall good l ->
  (forall x, In x l -> forall y tx ty r1 r2, good y -> W x = Ok tx -> W y = Ok ty -> stop r1 -> stop r2 -> tx ++ r1 = ty ++ r2 -> E x = E y /\ r1 = r2) ->
  forall m tl tm r1 r2, Forall good m -> SerializerModel.omap W l = Ok tl -> SerializerModel.omap W m = Ok tm ->
  commas tl ++ close :: r1 = commas tm ++ close :: r2 -> map E l = map E m /\ r1 = r2.
Proof.
  intros Hc H44 Hl. induction Hl as [|x l Hx Hl IH]; intros H m tl tm r1 r2 Hm El Em Q.
  - cbn in El. injection El as <-. destruct Hm as [|y m Hy Hm]; cbn in Em.
    + injection Em as <-. cbn in Q. injection Q as ->. auto.
    + destruct (W y) as [ty| |] eqn:Ey; cbn in Em; try discriminate. destruct (SerializerModel.omap W m) as [tm'| |]; cbn in Em; try discriminate. injection Em as <-.
      exfalso. pose proof (Hstart y ty Ey Hy) as Hst. symmetry in Q.
      assert (Hq : exists q, ty ++ q = close :: r1) by (destruct tm' as [|z tm']; cbn in Q; [eauto|rewrite <- app_assoc in Q; eauto]).
      destruct Hq as [q Hq]. revert Hq. apply starts_stop; [exact Hst|right; exists close, r1; auto].
  - cbn in El. destruct (W x) as [tx| |] eqn:Ex; cbn in El; try discriminate.
    destruct (SerializerModel.omap W l) as [tl'| |] eqn:El'; cbn in El; try discriminate. injection El as <-.
    destruct Hm as [|y m Hy Hm]; cbn in Em.
    + injection Em as <-. exfalso. pose proof (Hstart x tx Ex Hx) as Hst. cbn [commas app] in Q.
      assert (Hq : exists q, tx ++ q = close :: r2) by (destruct tl' as [|z tl']; cbn in Q; [eauto|rewrite <- app_assoc in Q; eauto]).
      destruct Hq as [q Hq]. revert Hq. apply starts_stop; [exact Hst|right; exists close, r2; auto].
    + destruct (W y) as [ty| |] eqn:Ey; cbn in Em; try discriminate.
      destruct (SerializerModel.omap W m) as [tm'| |] eqn:Em'; cbn in Em; try discriminate. injection Em as <-.
      set (tail := fun ts r => match ts with [] => close :: r | _ => 44 :: commas ts ++ close :: r end).
      assert (Ht : forall t ts r, commas (t :: ts) ++ close :: r = t ++ tail ts r).
      { intros t [|z ts] r; [reflexivity|]. cbn. rewrite <- app_assoc. reflexivity. }
      assert (Hs : forall ts r, stop (tail ts r)).
      { intros [|z ts] r; right; cbn; [exists close, r; auto|]. eexists 44, _. split; [reflexivity|left; reflexivity]. }
      rewrite !Ht in Q. destruct (H x (or_introl eq_refl) y tx ty _ _ Hy Ex Ey (Hs _ _) (Hs _ _) Q) as [Hxy Q'].
      assert (Q2 : commas tl' ++ close :: r1 = commas tm' ++ close :: r2).
      { destruct tl' as [|z tl'], tm' as [|z' tm']; cbn [tail] in Q'.
        - exact Q'.
        - exfalso. injection Q' as Q' _. congruence.
        - exfalso. injection Q' as Q' _. congruence.
        - injection Q' as Q'. exact Q'. }
      destruct (IH (fun z Hz => H z (or_intror Hz)) m tl' tm' r1 r2 Hm eq_refl Em' Q2) as [H1 ->]. cbn [map]. rewrite Hxy, H1. auto.
Qed.
End Lists.

(** [show] prints the number without delimiters and not like the start of another value. *)
Definition number_plain (show : Z -> list Z) (f : Z) : Prop :=
  exists c r, show f = c :: r /\ Forall (fun x => ~ stops x) (c :: r) /\ ~ In c [34; 91; 102; 110; 116; 123].

(** Values without bigints, with numbers in [Q]; strings are sequences of 16-bit units. *)
Inductive simple (Q : Z -> Prop) : tree -> Prop :=
| si_null : simple Q VNull
| si_bool b : simple Q (VBool b)
| si_number f : Q f -> simple Q (VNumber f)
| si_string s : Forall unit16 s -> simple Q (VString s)
| si_array l : Forall (simple Q) l -> simple Q (VArray l)
| si_object l : Forall (fun kv => Forall unit16 (fst kv) /\ simple Q (snd kv)) l -> simple Q (VObject l).

Section Code.
Context (show : Z -> list Z) (Q : Z -> Prop).
Hypothesis plain : forall f, Q f -> number_plain show f.
Hypothesis inj : forall f g, Q f -> Q g -> show f = show g -> f = g.

Definition first (a : any) : Z -> Prop :=
  match a with
  | ANull => eq 110 | ABool true => eq 116 | ABool false => eq 102 | ANumber _ => fun c => ~ In c [34; 91; 102; 110; 116; 123]
  | AString _ => eq 34 | AArray _ _ => eq 91 | AObject _ _ => eq 123 | ABigint _ => fun _ => False
  end.
Lemma write_first a t : simple Q (erase a) -> write_json show a = Ok t -> exists c r, t = c :: r /\ first a c /\ ~ stops c.
Proof.
  unfold stops. destruct a as [ |b|f|s|b|i l|i l]; cbn [erase write_json]; intros H E; inversion H as [ | |f' Hf|s' Hs|l' Hl|l' Hl]; subst.
  - injection E as <-. eexists 110, _. split; [reflexivity|]. split; [reflexivity|lia].
  - destruct b; injection E as <-; eexists _, _; (split; [reflexivity|]); (split; [reflexivity|lia]).
  - injection E as <-. destruct (plain f Hf) as (c & r & -> & H1 & H2). exists c, r. split; [reflexivity|]. split; [exact H2|]. exact (Forall_inv H1).
  - injection E as <-. eexists 34, _. split; [reflexivity|]. split; [reflexivity|lia].
  - destruct (SerializerModel.omap _ l); cbn in E; try discriminate. injection E as <-. eexists 91, _. split; [reflexivity|]. split; [reflexivity|lia].
  - destruct (SerializerModel.omap _ l); cbn in E; try discriminate. injection E as <-. eexists 123, _. split; [reflexivity|]. split; [reflexivity|lia].
Qed.

Lemma json_code a : simple Q (erase a) -> forall b ta tb r1 r2, simple Q (erase b) -> write_json show a = Ok ta -> write_json show b = Ok tb ->
  stop r1 -> stop r2 -> ta ++ r1 = tb ++ r2 -> erase a = erase b /\ r1 = r2.
Proof.
  induction a as [ |x|f|s|x|i l IH|i l IH] using any_rect_all; intros Ha b ta tb r1 r2 Hb Ea Eb S1 S2 E;
    destruct (write_first _ _ Ha Ea) as (c & ra & Hc & Fc & _); destruct (write_first _ _ Hb Eb) as (d & rb & Hd & Fd & _);
    (assert (c = d) by (subst ta tb; injection E; auto)); subst d;
    destruct b as [ |y|g|u|y|j m|j m]; cbn [first] in Fc, Fd;
    repeat match goal with b : bool |- _ => destruct b end; subst; try contradiction; try discriminate;
    try (exfalso; apply Fc; cbn; tauto); try (exfalso; apply Fd; cbn; tauto).
  all: cbn [write_json] in Ea, Eb.
  - split; [reflexivity|]. injection Ea as Ea. injection Eb as Eb. rewrite <- Ea, <- Eb in E. cbn in E. injection E. auto.
  - split; [reflexivity|]. injection Ea as Ea. injection Eb as Eb. rewrite <- Ea, <- Eb in E. cbn in E. injection E. auto.
  - split; [reflexivity|]. injection Ea as Ea. injection Eb as Eb. rewrite <- Ea, <- Eb in E. cbn in E. injection E. auto.
  - injection Ea as Ea. injection Eb as Eb. rewrite <- Ea, <- Eb in E.
    inversion Ha as [ | |f' Hf| | |]; inversion Hb as [ | |g' Hg| | |]; subst.
    destruct (plain f Hf) as (c1 & q1 & P1 & P2 & _), (plain g Hg) as (c2 & q2 & P3 & P4 & _).
    destruct (plain_code (show f) (show g) r1 r2) as [H1 H2]; auto; [rewrite P1; exact P2|rewrite P3; exact P4|].
    cbn [erase]. rewrite (inj f g Hf Hg H1). auto.
  - injection Ea as Ea. injection Eb as Eb. rewrite <- Ea, <- Eb in E.
    inversion Ha; inversion Hb; subst. destruct (js_string_code s u r1 r2) as [-> ->]; auto.
  - destruct (SerializerModel.omap (write_json show) l) as [tl| |] eqn:El; cbn in Ea; try discriminate.
    destruct (SerializerModel.omap (write_json show) m) as [tm| |] eqn:Em; cbn in Eb; try discriminate.
    injection Ea as Ea. injection Eb as Eb. rewrite <- Ea, <- Eb in E. cbn [app] in E. injection E as E. rewrite <- !app_assoc in E. cbn [app] in E.
    inversion Ha as [ | | | |l' Hl|]; inversion Hb as [ | | | |m' Hm|]; subst. rewrite Forall_map in Hl, Hm.
    destruct (commas_code (write_json show) erase (fun x => simple Q (erase x))) with (close := 93) (l := l) (m := m) (tl := tl) (tm := tm) (r1 := r1) (r2 := r2) as [H1 H2]; auto.
    + intros x t Ht Hx. destruct (write_first x t Hx Ht) as (c & r & -> & _ & Hc). exists c, r. auto.
    + right. left. reflexivity.
    + discriminate.
    + intros x Hx y tx ty q1 q2 Hy Wx Wy T1 T2 Eq. eapply IH; eauto. exact (proj1 (Forall_forall _ _) Hl x Hx).
    + cbn [erase]. rewrite H1. auto.
  - set (F := fun kv : list Z * any => let! t := write_json show (snd kv) in Ok (js_string (fst kv) ++ 58 :: t)) in *.
    set (E2 := fun kv : list Z * any => (fst kv, erase (snd kv))) in *.
    destruct (SerializerModel.omap F l) as [tl| |] eqn:El; cbn in Ea; try discriminate.
    destruct (SerializerModel.omap F m) as [tm| |] eqn:Em; cbn in Eb; try discriminate.
    injection Ea as Ea. injection Eb as Eb. rewrite <- Ea, <- Eb in E. cbn [app] in E. injection E as E. rewrite <- !app_assoc in E. cbn [app] in E.
    inversion Ha as [ | | | | |l' Hl]; inversion Hb as [ | | | | |m' Hm]; subst. rewrite Forall_map in Hl, Hm.
    destruct (commas_code F E2 (fun kv => Forall unit16 (fst kv) /\ simple Q (erase (snd kv)))) with (close := 125) (l := l) (m := m) (tl := tl) (tm := tm) (r1 := r1) (r2 := r2) as [H1 H2]; auto.
    + intros [k x] t Ht _. unfold F in Ht. cbn [fst snd] in Ht. destruct (write_json show x); cbn in Ht; try discriminate. injection Ht as <-.
      eexists 34, _. split; [reflexivity|unfold stops; lia].
    + right. right. reflexivity.
    + discriminate.
    + intros [k x] Hx [k' y] tx ty q1 q2 [Hk' Hy] Wx Wy T1 T2 Eq. unfold F in Wx, Wy. cbn [fst snd] in *.
      destruct (write_json show x) as [wx| |] eqn:Ex; cbn in Wx; try discriminate. destruct (write_json show y) as [wy| |] eqn:Ey; cbn in Wy; try discriminate.
      assert (Hwx : js_string k ++ 58 :: wx = tx) by (injection Wx; auto). assert (Hwy : js_string k' ++ 58 :: wy = ty) by (injection Wy; auto). rewrite <- Hwx, <- Hwy, <- (app_assoc (js_string k)), <- (app_assoc (js_string k')) in Eq. destruct (proj1 (Forall_forall _ _) Hl _ Hx) as [Hk Hsx]. cbn [fst snd] in *.
      destruct (js_string_code k k' _ _ Hk Hk' Eq) as [-> Eq']. cbn [app] in Eq'. injection Eq' as Eq'.
      destruct (IH x (in_map snd _ _ Hx) Hsx y wx wy q1 q2 Hy Ex Ey T1 T2 Eq') as [He ->]. unfold E2. cbn [fst snd]. rewrite He. auto.
    + cbn [erase]. fold E2. rewrite H1. auto.
Qed.
End Code.

Lemma simple_ok show Q a : simple Q (erase a) -> exists t, write_json show a = Ok t.
Proof.
  induction a as [ |x|f|s|x|i l IH|i l IH] using any_rect_all; cbn [erase write_json]; intros H; inversion H as [ | | | |l' Hl|l' Hl]; subst; eauto; rewrite Forall_map, Forall_forall in Hl.
  - destruct (omap_ok (write_json show) (fun _ _ => True) l) as (ts & -> & _); [|cbn; eauto]. intros x Hx. destruct (IH x Hx (Hl x Hx)) as [t ->]. eauto.
  - set (F := fun kv : list Z * any => let! t := write_json show (snd kv) in Ok (js_string (fst kv) ++ 58 :: t)).
    destruct (omap_ok F (fun _ _ => True) l) as (ts & -> & _); [|cbn; eauto]. intros x Hx. unfold F.
    destruct (IH (snd x) (in_map snd _ _ Hx) (proj2 (Hl x Hx))) as [t ->]. cbn. eauto.
Qed.
