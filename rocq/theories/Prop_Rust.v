(** Property C53 for the numbers that Rust prints: f64::to_string writes the shortest decimal
    that reads as the number, of at most 17 digits unless the number is an integer. *)
From Coq Require Import ZArith List Bool String Lia Reals Lra.
From Flocq Require Import Core BinarySingleNaN Binary Bits.
From Verif Require Import Outcome VTac JsBigintModel BigFloatModel TextSpec BigFloatSpec TokenizerModel TokenizerSpec ValueModel ParserModel ParserSpec SerializerModel SerializerSpec JsTextSpec
  ConvertSpec SerializerProofs Prop_Serializer ParserModules ParserModules Prop_Json Prop_Convert Prop_Astral.
Import ListNotations.
Open Scope Z_scope.

(** * Specification *)

(** A finite number, its value, and how Rust prints it: without exponent; with a fraction only
    if there are at most 17 digits; the decimal is nearest to the number. *)
Definition finite (f : Z) : Prop := 0 <= f < 2 ^ 64 /\ is_finite 53 1024 (b64_of_bits f) = true.
Definition value (f : Z) : R := B2R 53 1024 (b64_of_bits f).
Definition shortest (show : Z -> list Z) (f : Z) : Prop :=
  exists n, number_ok n /\ nl_exp n = None /\ show f = number_text n /\ literal_value n f /\ (nl_frac n = [] \/ number_mantissa n < 10 ^ 17).

(** Numbers: zero, or finite and of magnitude above 2^-36, about 1.5e-11. *)
Definition large (show : Z -> list Z) (f : Z) : Prop :=
  f = 0 /\ show f = txt "0" \/ finite f /\ (bpow radix2 (-36) < Rabs (value f))%R /\ shortest show f.

(** Values with such numbers, strings without surrogates, and keys in order. *)
Inductive ordinary (show : Z -> list Z) : tree -> Prop :=
| or_null : ordinary show VNull
| or_bool b : ordinary show (VBool b)
| or_number f : large show f -> ordinary show (VNumber f)
| or_string s : bmp s -> ordinary show (VString s)
| or_array l : Forall (ordinary show) l -> ordinary show (VArray l)
| or_object l : Forall (fun kv => bmp (fst kv) /\ ordinary show (snd kv)) l ->
    Sorted.StronglySorted (fun a b => text_before (fst a) (fst b)) l -> ordinary show (VObject l).

(** * Proofs *)
Lemma rne64_small x : (0 <= x)%R -> (x <= bpow radix2 (-36))%R -> (rne64 x <= bpow radix2 (-36))%R.
Proof.
  intros H0 H. unfold rne64. apply round_le_generic; auto with typeclass_instances.
  apply generic_format_bpow. unfold FLT_exp. cbn. lia.
Qed.

Lemma small_decimal m e : 0 <= m < 10 ^ 17 -> e <= -28 -> (0 <= dec_real m e <= bpow radix2 (-36))%R.
Proof.
  intros Hm He. unfold dec_real. rewrite <- (bpow_powerRZ {| radix_val := 10; radix_prop := eq_refl |}).
  set (r10 := {| radix_val := 10; radix_prop := eq_refl |}).
  split; [apply Rmult_le_pos; [apply IZR_le; lia|apply bpow_ge_0]|].
  apply Rle_trans with (IZR (10 ^ 17) * bpow r10 (-28))%R.
  - apply Rmult_le_compat; [apply IZR_le; lia|apply bpow_ge_0|apply IZR_le; lia|apply bpow_le; exact He].
  - change (bpow r10 (-28)) with (/ IZR (10 ^ 28))%R. change (bpow radix2 (-36)) with (/ IZR (2 ^ 36))%R.
    apply Rmult_le_reg_r with (IZR (10 ^ 28)); [apply IZR_lt; lia|]. rewrite Rmult_assoc, Rinv_l by (apply IZR_neq; lia). rewrite Rmult_1_r.
    apply Rmult_le_reg_l with (IZR (2 ^ 36)); [apply IZR_lt; lia|]. rewrite <- Rmult_assoc, Rinv_r by (apply IZR_neq; lia). rewrite Rmult_1_l, <- mult_IZR. apply IZR_le. lia.
Qed.

Lemma large_number show f : finite f -> (bpow radix2 (-36) < Rabs (value f))%R -> shortest show f -> number_shown show f.
Proof.
  intros Hf Hv Hs. assert (Hnz : value f <> 0%R).
  { intros E. rewrite E, Rabs_R0 in Hv. pose proof (bpow_ge_0 radix2 (-36)). lra. }
  destruct Hs as (n & Hok & Hexp & Ht & Hl & Hd). exists n.
  assert (Hm0 : 0 <= number_mantissa n) by (apply mantissa_nonneg, Hok).
  assert (Hval : Rabs (value f) = rne64 (dec_real (number_mantissa n) (number_exp10 n))).
  { set (x := dec_real (number_mantissa n) (number_exp10 n)) in *. assert (Hx : (0 <= x)%R) by (apply Rmult_le_pos; [apply IZR_le, Hm0|apply powerRZ_le; lra]).
    assert (Hr : (0 <= rne64 x)%R) by (unfold rne64; apply round_ge_generic; auto with typeclass_instances; apply generic_format_0).
    destruct Hl as (_ & H1 & H2). destruct (Rlt_or_le (rne64 x) (bpow radix2 1024)) as [Hlt|Hge].
    - destruct (H1 Hlt) as (_ & HB & _). unfold value. rewrite HB. destruct (neg_bit _); [rewrite Rabs_Ropp|]; apply Rabs_pos_eq, Hr.
    - exfalso. destruct Hf as [_ Hfin]. rewrite (H2 Hge) in Hfin. discriminate. }
  split; [exact Hok|]. split; [exact Hexp|]. split; [exact Ht|]. split.
  - destruct (Z.le_gt_cases (-27) (number_exp10 n)) as [|Hlt]; [assumption|exfalso].
    destruct Hd as [Hd|Hd].
    + unfold number_exp10, exp_value in Hlt. rewrite Hexp, Hd in Hlt. cbn in Hlt. lia.
    + destruct (small_decimal (number_mantissa n) (number_exp10 n)) as [G1 G2]; [lia|lia|].
      pose proof (rne64_small _ G1 G2). lra.
  - right. split; [|exact Hl]. destruct (Z.eq_dec (number_mantissa n) 0) as [E|]; [exfalso|lia].
    rewrite Hval, E in Hv. unfold dec_real in Hv. rewrite Rmult_0_l in Hv. unfold rne64 in Hv. rewrite round_0 in Hv by auto with typeclass_instances.
    pose proof (bpow_ge_0 radix2 (-36)). lra.
Qed.

Lemma zero_shown show : show 0 = txt "0" -> number_shown show 0.
Proof.
  intros E. exists {| nl_neg := false; nl_int := [48]; nl_frac := []; nl_exp := None |}. unfold number_ok, int_part, all_digits. cbn [nl_int nl_frac nl_exp nl_neg].
  split; [repeat constructor; left; reflexivity|]. split; [reflexivity|]. split; [rewrite E; reflexivity|]. split; [vm_compute; discriminate|left; repeat split].
Qed.
Lemma large_shown show f : large show f -> number_shown show f.
Proof. intros [[-> E]|(H1 & H2 & H3)]; [apply zero_shown, E|apply large_number; assumption]. Qed.
Lemma ordinary_readable show : forall t, ordinary show t -> readable show t.
Proof.
  fix IH 2. intros t H. destruct H as [ |b|f H|s H|l H|l H Ho].
  - constructor.
  - constructor.
  - constructor. apply large_shown, H.
  - constructor. exact H.
  - constructor. induction H as [|x l Hx H IHl]; constructor; [apply IH, Hx|exact IHl].
  - constructor; [|exact Ho]. clear Ho. induction H as [|x l [Hk Hx] H IHl]; constructor; [split; [exact Hk|apply IH, Hx]|exact IHl].
Qed.

(** * C53, C74 *)

(** The round trip in terms of the values alone. *)
Theorem C53_rust_partial : forall show a, ordinary show (erase a) ->
  exists text f0, to_json show a = Ok text /\
  forall io fuel depth c, (f0 <= fuel)%nat -> io (cx_path c) = Some text ->
  exists c' b, parse io fuel (S depth) c = Ok (c', inl (Json, b)) /\ erase b = erase a.
Proof. intros show a Ha. apply C53_round_trip_partial, ordinary_readable, Ha. Qed.
Print Assumptions C53_rust_partial.

(** The same for whole conversions: numbers zero or finite and of magnitude above 2^-36, any
    strings; the output is read back as the value of the input if and only if it has no
    surrogate. *)
Inductive usual (show : Z -> list Z) : tree -> Prop :=
| us_null : usual show VNull
| us_bool b : usual show (VBool b)
| us_number f : large show f -> usual show (VNumber f)
| us_string s : Forall unit16 s -> usual show (VString s)
| us_array l : Forall (usual show) l -> usual show (VArray l)
| us_object l : Forall (fun kv => Forall unit16 (fst kv) /\ usual show (snd kv)) l -> usual show (VObject l).

Lemma usual_shown show : forall t, usual show t -> shown show t.
Proof.
  fix IH 2. intros t H. destruct H as [ |b|f H|s H|l H|l H].
  - constructor.
  - constructor.
  - constructor. apply large_shown, H.
  - constructor. exact H.
  - constructor. induction H as [|x l Hx H IHl]; constructor; [apply IH, Hx|exact IHl].
  - constructor. induction H as [|x l [Hk Hx] H IHl]; constructor; [split; [exact Hk|apply IH, Hx]|exact IHl].
Qed.

Theorem C74_rust_partial : forall show peek disk, any_order peek -> (forall p text, disk p text = Written) ->
  forall io tf n input d t, denotes io tf (at_root input) n input d t -> usual show t ->
  forall output, written_as output Json -> forall depth, (n <= depth)%nat -> forall cfuel prog rest,
  exists io', app_run show peek disk tf depth cfuel (prog :: input :: output :: rest) io = Ok (None, io')
    /\ (forall p, p <> output -> io' p = io p)
    /\ (~ astral t -> exists g0, forall g, (g0 <= g)%nat -> exists n', denotes io' g (at_root output) n' output Json t)
    /\ (astral t -> forall g n' d' t', ~ denotes io' g (at_root output) n' output d' t').
Proof.
  intros show peek disk order Hdisk io tf n input d t Hd Hu. apply (C74_exact_partial show peek disk order Hdisk io tf n input d t Hd). apply usual_shown, Hu.
Qed.
Print Assumptions C74_rust_partial.

(** The value [[0.5,0]]. *)
Example C53_rust_case : let show f := if f =? 0 then txt "0" else txt "0.5" in
  ordinary show (VArray [VNumber 0x3FE0000000000000; VNumber 0]) /\ to_json show (AArray 1 [ANumber 0x3FE0000000000000; ANumber 0]) = Ok (txt "[0.5,0]").
Proof.
  split; [|reflexivity]. constructor. apply Forall_cons; [|apply Forall_cons; [|apply Forall_nil]]; constructor; [right|left; split; reflexivity].
  assert (E : exists H, b64_of_bits 0x3FE0000000000000 = B754_finite 53 1024 false 4503599627370496 (-53) H) by (eexists; vm_compute; reflexivity).
  destruct E as [H E].
  assert (V : value 0x3FE0000000000000 = bpow radix2 (-1)).
  { unfold value. rewrite E. cbn [B2R cond_Zopp]. unfold F2R. cbn [Fnum Fexp]. change (IZR 4503599627370496) with (bpow radix2 52). rewrite <- bpow_plus. reflexivity. }
  split; [split; [lia|rewrite E; reflexivity]|]. split; [rewrite V, Rabs_pos_eq by apply bpow_ge_0; apply bpow_lt; lia|].
  exists {| nl_neg := false; nl_int := [48]; nl_frac := [53]; nl_exp := None |}. unfold number_ok, int_part, all_digits. cbn [nl_int nl_frac nl_exp nl_neg].
  split; [repeat constructor; left; reflexivity|]. split; [reflexivity|]. split; [reflexivity|]. split; [|right; vm_compute; reflexivity].
  unfold literal_value. cbn [nl_neg].
  assert (X : dec_real (number_mantissa {| nl_neg := false; nl_int := [48]; nl_frac := [53]; nl_exp := None |}) (number_exp10 {| nl_neg := false; nl_int := [48]; nl_frac := [53]; nl_exp := None |}) = bpow radix2 (-1)).
  { unfold dec_real. change (number_mantissa _) with 5. change (number_exp10 _) with (-1). cbn. change (Pos.to_nat 1) with 1%nat. change (2 * 1) with 2. cbn. lra. }
  rewrite X. assert (Hr : rne64 (bpow radix2 (-1)) = bpow radix2 (-1)).
  { unfold rne64. apply round_generic; auto with typeclass_instances. apply generic_format_bpow. unfold FLT_exp. cbn. lia. }
  split; [lia|]. rewrite Hr. split.
  - intros _. rewrite E at 1. split; [reflexivity|]. split; [exact V|rewrite E; reflexivity].
  - intros Hbig. exfalso. apply (Rlt_not_le _ _ (bpow_lt radix2 (-1) 1024 eq_refl)), Hbig.
Qed.
