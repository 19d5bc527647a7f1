(** Panic freedom of the bigint division and of the conversion of decimals: whatever the fuel,
    a run does not panic, and what it returns is well-formed. *)
From Coq Require Import ZArith List Bool Lia.
From Coq Require Import ZifyBool ZifyNat.
From Verif Require Import Outcome LimbsModel LimbsSpec BigUintModel BigIntModel JsBigintModel BigSpec
  LimbsProofs ShiftProofs BigUintProofs JsBigintProofs JsBitsProofs JsDivProofs BigFloatModel Prop_JsBigint
  BigFloatProofs BigFloatReal BigFloatRound BitsetModel BitsetSpec BitsetProofs.
Import ListNotations.
Open Scope Z_scope.

(** No fuel makes the run panic, and every returned value satisfies [P]. *)
Definition safe {A} (o : nat -> outcome A) (P : A -> Prop) : Prop :=
  forall fuel, match o fuel with Ok v => P v | Panic => False | NoFuel => True end.

Lemma safe_ok {A} (o : nat -> outcome A) (P : A -> Prop) v : (forall fuel, o fuel = Ok v) -> P v -> safe o P.
Proof. intros H Hv fuel. rewrite H. exact Hv. Qed.
Lemma safe_bind {A C} (o : nat -> outcome A) (k : nat -> A -> outcome C) P Q :
  safe o P -> (forall a, P a -> safe (fun fuel => k fuel a) Q) -> safe (fun fuel => obind (o fuel) (k fuel)) Q.
Proof.
  intros H K fuel. specialize (H fuel). destruct (o fuel) as [a| |]; cbn [obind]; [exact (K a H fuel)|exact H|exact I].
Qed.
Lemma safe_mono {A} (o : nat -> outcome A) (P Q : A -> Prop) : safe o P -> (forall a, P a -> Q a) -> safe o Q.
Proof. intros H K fuel. specialize (H fuel). destruct (o fuel); auto. Qed.
Lemma safe_ext {A} (o o' : nat -> outcome A) P : safe o P -> (forall fuel, o' fuel = o fuel) -> safe o' P.
Proof. intros H E fuel. rewrite E. apply H. Qed.

(** ** division *)

Lemma sub_loop_firstn lhs : forall rhs bo, sub_loop lhs rhs bo = sub_loop lhs (firstn (length lhs) rhs) bo.
Proof.
  induction lhs as [|a lhs IH]; intros rhs bo; [reflexivity|]. destruct rhs as [|b rhs]; [reflexivity|].
  cbn [sub_loop firstn length hd tl]. rewrite IH. reflexivity.
Qed.
Lemma limbs_firstn n v : limbs v -> limbs (firstn n v).
Proof. intros H. rewrite <- (firstn_skipn n v) in H. apply limbs_app in H. tauto. Qed.
(** The wrapping subtraction, in general. *)
Lemma sub_vec_wrap a m : limbs a -> limbs m -> val (sub_vec a m) mod B ^ Z.of_nat (length a) = (val a - val m) mod B ^ Z.of_nat (length a).
Proof.
  intros Ha Hm. unfold sub_vec. rewrite sub_loop_firstn. fold (sub_vec a (firstn (length a) m)).
  pose proof (Bpow_pos (Z.of_nat (length a)) ltac:(lia)) as HP.
  rewrite sub_vec_mod; [|exact Ha|apply limbs_firstn, Hm|rewrite firstn_length; lia].
  rewrite Z.mod_mod by lia.
  rewrite <- (firstn_skipn (length a) m) at 2. rewrite val_app.
  destruct (Nat.le_gt_cases (length m) (length a)) as [H|H].
  - rewrite skipn_all2 by exact H. rewrite val_nil. f_equal. lia.
  - rewrite firstn_length, Nat.min_l by lia.
    replace (val a - (val (firstn (length a) m) + B ^ Z.of_nat (length a) * val (skipn (length a) m)))
      with (val a - val (firstn (length a) m) + (- val (skipn (length a) m)) * B ^ Z.of_nat (length a)) by lia.
    rewrite Z.mod_add by lia. reflexivity.
Qed.
Lemma mod_pow_le x y m n : (m <= n)%nat -> x mod B ^ Z.of_nat n = y mod B ^ Z.of_nat n -> x mod B ^ Z.of_nat m = y mod B ^ Z.of_nat m.
Proof.
  intros Hmn H. pose proof (Bpow_pos (Z.of_nat m) ltac:(lia)) as Pm. pose proof (Bpow_pos (Z.of_nat n) ltac:(lia)) as Pn.
  assert (D : (B ^ Z.of_nat m | B ^ Z.of_nat n)).
  { exists (B ^ Z.of_nat (n - m)). rewrite <- Z.pow_add_r by lia. f_equal. lia. }
  rewrite (Znumtheory.Zmod_div_mod _ _ x Pm Pn D), (Znumtheory.Zmod_div_mod _ _ y Pm Pn D), H. reflexivity.
Qed.

(** One step of the division loop, for every divisor. *)
Lemma jb_div_any a b res : canon a -> canon b -> b <> [] -> val b <= val a ->
  exists q m, (forall fuel, jb_div_loop (S fuel) a b res = jb_div_loop fuel (normalize_vec (sub_vec a m)) b (add_vec res q)) /\
    limbs q /\ canon m /\ val m = val q * val b /\ (canon q /\ 0 < val q \/ forall fuel res, jb_div_loop fuel a b res = NoFuel).
Proof.
  intros Ha Hb Hnb Hge.
  destruct (estimate_spec a b Ha Hb Hnb ltac:(lia)) as [qi [qd [Ee [Hqd _]]]].
  pose proof (Bpow_pos (Z.of_nat qi) ltac:(lia)) as HPq.
  destruct (mul_vec_spec b (q_vec qi qd)) as [m [Em [Hm Hvm]]]; auto; [apply q_vec_limbs; lia|apply q_vec_nonnil|]. rewrite q_vec_val in Hvm.
  destruct (mul_vec_spec b (q_vec qi (qd - 1))) as [m' [Em' [Hm' Hvm']]]; auto; [apply q_vec_limbs; lia|apply q_vec_nonnil|].
  rewrite q_vec_val in Hvm'.
  assert (Hcmp : cmp_vec a b <> Lt) by (rewrite cmp_vec_spec by auto; destruct (Z.compare_spec (val a) (val b)); [congruence|lia|congruence]).
  assert (Hstep : forall fuel res, jb_div_loop (S fuel) a b res =
    match std_vec_cmp a m with
    | Lt => jb_div_loop fuel (normalize_vec (sub_vec a m')) b (add_vec res (q_vec qi (qd - 1)))
    | _ => jb_div_loop fuel (normalize_vec (sub_vec a m)) b (add_vec res (q_vec qi qd))
    end).
  { intros fuel res'. cbn [jb_div_loop]. destruct (cmp_vec a b); [|congruence|];
      rewrite Ee; cbn [obind]; rewrite Em; cbn [obind]; (destruct (std_vec_cmp a m); [reflexivity| |reflexivity]);
      destruct (qd =? 0) eqn:E0; try lia; rewrite Em'; reflexivity. }
  destruct (std_vec_cmp a m) eqn:Ec.
  1,3: exists (q_vec qi qd), m; (split; [intros; apply Hstep|]); (split; [apply q_vec_limbs; lia|]); (split; [exact Hm|]);
       rewrite q_vec_val; (split; [lia|]); left; (split; [apply q_vec_canon; lia|apply Z.mul_pos_pos; lia]).
  exists (q_vec qi (qd - 1)), m'. split; [intros; apply Hstep|]. split; [apply q_vec_limbs; lia|]. split; [exact Hm'|].
  rewrite q_vec_val. split; [lia|]. destruct (Z.eq_dec qd 1) as [E|N].
  - right. assert (Ez : m' = []) by (apply canon_val0; [exact Hm'|]; rewrite Hvm', E; lia). subst m'.
    assert (Es : normalize_vec (sub_vec a []) = a).
    { destruct (sub_vec_norm_spec a [] Ha canon_nil) as [H1 H2]; [rewrite val_nil; apply val_nonneg; auto|].
      apply canon_inj; auto. unfold sub_vec_norm in H2. rewrite H2, val_nil. lia. }
    induction fuel as [|fuel IH]; intros res'; [reflexivity|]. rewrite Hstep, Es. apply IH.
  - left. split; [apply q_vec_canon; lia|apply Z.mul_pos_pos; lia].
Qed.

Lemma jb_div_loop_safe b : canon b -> b <> [] -> forall fuel a res, canon a -> canon res ->
  match jb_div_loop fuel a b res with
  | Ok (q, r) => canon q /\ canon r /\ val r < val b /\ val res <= val q /\ (val b <= val a -> val res < val q) /\
      (val q * val b + val r) mod B ^ Z.of_nat (length b) = (val res * val b + val a) mod B ^ Z.of_nat (length b)
  | Panic => False
  | NoFuel => True
  end.
Proof.
  intros Hb Hnb. pose proof (canon_pos b Hb Hnb) as Pb. induction fuel as [|fuel IH]; intros a res Ha Hres; [exact I|].
  destruct (Z.lt_ge_cases (val a) (val b)) as [Hlt|Hge].
  - cbn [jb_div_loop]. rewrite cmp_vec_spec by auto. rewrite (proj2 (Z.compare_lt_iff _ _) Hlt).
    repeat split; try apply Hres; try apply Ha; lia.
  - destruct (jb_div_any a b res Ha Hb Hnb ltac:(lia)) as (q0 & m & Hstep & Hq0 & Hm & Hvm & Hor).
    destruct Hor as [[Cq0 Pq0]|Hst]; [|rewrite Hst; exact I]. rewrite Hstep.
    assert (Hs : canon (normalize_vec (sub_vec a m))) by (apply normalize_canon, sub_vec_limbs).
    assert (Hr : canon (add_vec res q0)) by (apply add_vec_canon; auto).
    specialize (IH _ _ Hs Hr). rewrite add_vec_val, normalize_val in IH by auto.
    destruct (jb_div_loop fuel _ b _) as [[q r]| |]; [|exact IH|exact I].
    destruct IH as (I1 & I2 & I3 & I4 & I5 & I6). split; [exact I1|]. split; [exact I2|]. split; [exact I3|].
    split; [lia|]. split; [lia|]. rewrite I6.
    assert (Hlen : (length b <= length a)%nat) by (apply canon_len_le; auto).
    pose proof (mod_pow_le _ _ _ _ Hlen (sub_vec_wrap a m ltac:(auto) ltac:(auto))) as Hw.
    pose proof (Bpow_pos (Z.of_nat (length b)) ltac:(lia)) as HP.
    rewrite Z.add_mod, Hw, <- Z.add_mod by lia. f_equal. rewrite Hvm. ring.
Qed.

Lemma jb_div_mod_safe a b : jwf a -> jwf b -> jval b <> 0 ->
  safe (fun fuel => jb_div_mod fuel a b) (fun '(q, r) => jwf q /\ jwf r /\ Z.abs (jval r) <= Z.abs (jval b) /\
    0 <= jval q * (Z.sgn (jval a) * Z.sgn (jval b)) /\ 0 <= jval r * (Z.sgn (jval a) * Z.sgn (jval b)) /\
    (Z.abs (jval b) <= Z.abs (jval a) -> jval q <> 0 /\ Z.abs (jval r) < Z.abs (jval b) /\
     (Z.abs (jval q) * Z.abs (jval b) + Z.abs (jval r)) mod B ^ Z.of_nat (length (jb_items b)) =
       Z.abs (jval a) mod B ^ Z.of_nat (length (jb_items b)))).
Proof.
  intros Ha Hb Hn fuel. pose proof (jabs a Ha) as Aa. pose proof (jabs b Hb) as Ab.
  pose proof (jwf_nonneg a Ha) as Na. pose proof (jwf_nonneg b Hb) as Nb.
  assert (Hnb : jb_items b <> []) by (rewrite jval_zero_iff by auto; exact Hn).
  assert (Hs : forall v, 0 <= v -> 0 <= sign_int (mul_sign (jb_sign a) (jb_sign b)) * v * (Z.sgn (jval a) * Z.sgn (jval b))).
  { intros v Hv. rewrite (jval_sign a), (jval_sign b).
    assert (S1 : 0 <= Z.sgn (val (jb_items a))) by (destruct (Z.sgn_spec (val (jb_items a))); lia).
    assert (S2 : 0 <= Z.sgn (val (jb_items b))) by (destruct (Z.sgn_spec (val (jb_items b))); lia).
    pose proof (Z.mul_nonneg_nonneg _ _ S1 S2). pose proof (Z.mul_nonneg_nonneg _ _ Hv H).
    rewrite !Z.sgn_mul. destruct (jb_sign a), (jb_sign b); cbn [mul_sign sign_eqb sign_int Z.sgn]; lia. }
  assert (Hx : forall v, 0 <= v -> Z.abs (sign_int (mul_sign (jb_sign a) (jb_sign b)) * v) = v).
  { intros v Hv. destruct (mul_sign _ _); cbn [sign_int]; lia. }
  unfold jb_div_mod. rewrite jb_is_zero_spec by auto. destruct (Z.eqb_spec (jval b) 0) as [|_]; [lia|].
  rewrite cmp_vec_spec by (apply Ha || apply Hb).
  destruct (Z.compare_spec (val (jb_items a)) (val (jb_items b))) as [E|E|E].
  - destruct (jb_from_u64_spec (mul_sign (jb_sign a) (jb_sign b)) 1 one_lt_B) as [Hw Hv]. rewrite Hv.
    change (jval jb_zero) with 0. split; [exact Hw|]. split; [apply jb_zero_wf|]. split; [lia|]. split; [apply Hs; lia|]. split; [lia|].
    intros _. rewrite Hx by lia. split; [destruct (mul_sign _ _); cbn [sign_int]; lia|]. split; [lia|]. f_equal. lia.
  - rewrite new_val. change (jval jb_zero) with 0. split; [apply jb_zero_wf|]. split; [apply new_wf, Hb|].
    rewrite Hx by lia. split; [lia|]. split; [lia|]. split; [apply Hs; lia|]. lia.
  - pose proof (jb_div_loop_safe (jb_items b) (proj1 Hb) Hnb fuel (jb_items a) [] (proj1 Ha) canon_nil) as H.
    destruct (jb_div_loop _ _ _ _) as [[q r]| |]; [|exact H|exact I]. cbn [obind].
    destruct H as (I1 & I2 & I3 & I4 & I5 & I6). rewrite val_nil in *. pose proof (val_nonneg r (proj1 I2)) as Nr.
    rewrite !new_val, !Hx by lia. split; [apply new_wf, I1|]. split; [apply new_wf, I2|]. split; [lia|].
    split; [apply Hs; lia|]. split; [apply Hs; lia|]. intros _. specialize (I5 ltac:(lia)).
    split; [destruct (mul_sign _ _); cbn [sign_int]; lia|]. split; [lia|]. rewrite Aa, Ab, I6. f_equal.
Qed.

(** ** conversion of decimals *)

Definition pos (f : bigfloat) : Prop := jwf (bf_sig f) /\ 0 < jval (bf_sig f).

Lemma increase_loop_safe m : jwf m -> 0 < jval m -> forall fuel s e, jwf s -> 0 < jval s ->
  match increase_loop fuel m s e with Ok (s', e') => jwf s' /\ jval m <= jval s' /\ 0 < jval s' | Panic => False | NoFuel => True end.
Proof.
  intros Hm Pm. induction fuel as [|fuel IH]; intros s e Hs Ps; [exact I|]. cbn [increase_loop]. rewrite cmp_pos by (auto; lia).
  destruct (Z.compare_spec (jval s) (jval m)); [split; [exact Hs|lia]| |split; [exact Hs|lia]].
  destruct (jb_shl_on_u64_spec s 1 Hs (pos_items _ Hs Ps)) as [s1 [E1 [H1 V1]]]; [lia|]. rewrite E1. cbn [obind]. apply IH; [exact H1|lia].
Qed.
Lemma increase_to_safe f m : pos f -> jwf m -> 0 < jval m ->
  safe (fun fuel => increase_significand_to fuel f m) (fun f' => pos f' /\ jval m <= jval (bf_sig f')).
Proof.
  intros [Hs Ps] Hm Pm fuel. unfold increase_significand_to. rewrite jb_is_zero_spec by auto. destruct (Z.eqb_spec (jval (bf_sig f)) 0); [lia|].
  pose proof (increase_loop_safe m Hm Pm fuel (bf_sig f) (bf_exp f) Hs Ps) as H. destruct (increase_loop _ _ _ _) as [[s e]| |]; [|exact H|exact I].
  cbn. unfold pos. cbn. tauto.
Qed.
Lemma increase_safe f p : pos f -> 0 <= p < 2 ^ 64 ->
  safe (fun fuel => increase_significand fuel f p) (fun f' => pos f' /\ 2 ^ p <= jval (bf_sig f')).
Proof.
  intros Hf Hp. destruct (one_shl_spec p Hp) as [m [Em [Hm Vm]]]. pose proof (Z.pow_pos_nonneg 2 p ltac:(lia) ltac:(lia)) as Hpp.
  rewrite <- Vm. refine (safe_ext _ _ _ (increase_to_safe f m Hf Hm ltac:(lia)) _). intros fuel.
  destruct Hf as [Hs Ps]. unfold increase_significand. rewrite jb_is_zero_spec by auto.
  destruct (Z.eqb_spec (jval (bf_sig f)) 0); [lia|]. rewrite Em. reflexivity.
Qed.
Lemma decrease_loop_safe m : jwf m -> 2 <= jval m -> forall fuel s e r, jwf s -> 0 < jval s ->
  match decrease_loop fuel m s e r with Ok (s', e', r') => jwf s' /\ 0 < jval s' < jval m | Panic => False | NoFuel => True end.
Proof.
  intros Hm Pm. induction fuel as [|fuel IH]; intros s e r Hs Ps; [exact I|]. cbn [decrease_loop]. rewrite cmp_pos by (auto; lia).
  destruct (shr1_spec s Hs ltac:(lia)) as [H1 V1].
  destruct (Z.compare_spec (jval s) (jval m)); [|split; [exact Hs|lia]|]; (apply IH; [exact H1|]); rewrite V1; apply Z.div_str_pos; lia.
Qed.
Lemma decrease_safe f p : pos f -> 1 <= p < 2 ^ 64 ->
  safe (fun fuel => decrease_significand fuel f p) (fun f' => pos f' /\ jval (bf_sig f') < 2 ^ p).
Proof.
  intros [Hs Ps] Hp fuel. destruct (one_shl_spec p ltac:(lia)) as [m [Em [Hm Vm]]].
  assert (2 ^ 1 <= 2 ^ p) by (apply Z.pow_le_mono_r; lia).
  unfold decrease_significand. rewrite jb_is_zero_spec by auto. destruct (Z.eqb_spec (jval (bf_sig f)) 0); [lia|]. rewrite Em. cbn [obind].
  pose proof (decrease_loop_safe m Hm ltac:(lia) fuel (bf_sig f) (bf_exp f) (bf_rem f) Hs Ps) as L.
  destruct (decrease_loop _ _ _ _ _) as [[[s e] r]| |]; [|exact L|exact I]. cbn. unfold pos. cbn. rewrite <- Vm. tauto.
Qed.

Lemma to_bin_safe f p : pos f -> - 2 ^ 63 < bf_exp f < 2 ^ 63 -> 1 <= p < 256 ->
  safe (fun fuel => to_bin fuel f p) (fun f' => pos f' /\ jval (bf_sig f') < 2 ^ p).
Proof.
  intros Hf He Hp. assert (Hz : jb_is_zero (bf_sig f) = false) by (rewrite jb_is_zero_spec by apply Hf; destruct Hf; lia).
  assert (ID : forall g, pos g -> safe (fun fuel => let! f1 := increase_significand fuel g p in decrease_significand fuel f1 p)
    (fun f' => pos f' /\ jval (bf_sig f') < 2 ^ p)).
  { intros g Hg. refine (safe_bind _ (fun fuel f1 => decrease_significand fuel f1 p) _ _ (increase_safe g p Hg ltac:(lia)) _).
    intros a [Ha _]. apply decrease_safe; [exact Ha|lia]. }
  destruct five_wf as [H5 V5]. unfold to_bin. rewrite Hz.
  assert (N5 : jb_items (jb_from_u64 Positive 5) <> []) by discriminate.
  destruct (Z.eqb_spec (bf_exp f) 0) as [E0|N0]; [apply ID, Hf|]. destruct (Z.ltb_spec 0 (bf_exp f)) as [E1|E1].
  - destruct (jb_pow_u64_spec _ (bf_exp f) H5 N5 ltac:(lia)) as (p5 & Ep & Hp5 & Vp). rewrite Ep. cbn [obind].
    destruct (jb_mul_spec (bf_sig f) p5 (proj1 Hf) Hp5) as [s [Es [Hs2 Vs]]]. rewrite Es. cbn [obind]. apply ID.
    split; cbn [bf_sig]; [exact Hs2|]. rewrite Vs, Vp, V5. apply Z.mul_pos_pos; [apply Hf|apply Z.pow_pos_nonneg; lia].
  - destruct (jb_pow_u64_spec _ (- bf_exp f) H5 N5 ltac:(lia)) as (p5 & Ep & Hp5 & Vp). rewrite Ep. cbn [obind].
    destruct (one_shl_spec p ltac:(lia)) as [m [Em [Hm Vm]]]. rewrite Em. cbn [obind].
    destruct (jb_mul_spec p5 m Hp5 Hm) as [pm [Epm [Hpm Vpm]]]. rewrite Epm. cbn [obind]. rewrite V5 in Vp.
    assert (P5 : 0 < 5 ^ (- bf_exp f)) by (apply Z.pow_pos_nonneg; lia).
    assert (Pp : 0 < 2 ^ p) by (apply Z.pow_pos_nonneg; lia).
    assert (Ppm : jval p5 <= jval pm) by (rewrite Vpm, Vm, Vp; clear - P5 Pp; nia).
    refine (safe_bind _ (fun fuel f1 => let! (q, r) := jb_div_mod fuel (bf_sig f1) p5 in _) _ _ (increase_to_safe f pm Hf Hpm ltac:(lia)) _).
    intros f1 [[H1 P1] L1].
    refine (safe_bind _ (fun fuel '(q, r) => decrease_significand fuel {| bf_sig := q; bf_sign := bf_sign f; bf_exp := bf_exp f1;
         bf_rem := bf_rem f || negb (jb_is_zero r) |} p) _ _ (jb_div_mod_safe (bf_sig f1) p5 H1 Hp5 ltac:(lia)) _).
    intros [q r] (Q1 & _ & _ & Q2 & _ & Q3). apply decrease_safe; [|lia]. split; cbn [bf_sig]; [exact Q1|].
    rewrite !Z.sgn_pos in Q2 by lia. destruct (Q3 ltac:(lia)) as [Q4 _]. lia.
Qed.

Lemma frac_bound f p : pos f -> 1 <= p < 64 -> jval (bf_sig f) < 2 ^ p -> exists fr, get_frac_round f = Ok fr /\ 0 <= fr <= 2 ^ (p - 1).
Proof.
  intros [Hs Ps] Hp Hl.
  assert (E : 2 ^ p = 2 * 2 ^ (p - 1)) by (rewrite <- Z.pow_succ_r by lia; f_equal; lia).
  assert (2 ^ p < 2 ^ 64) by (apply Z.pow_lt_mono_r; lia).
  rewrite get_frac_round_spec by (auto; rewrite B_eq; lia). eexists. split; [reflexivity|]. unfold frac_of.
  assert (0 <= jval (bf_sig f) / 2 < 2 ^ (p - 1)) by (split; [apply Z.div_pos; lia|apply Z.div_lt_upper_bound; lia]).
  repeat match goal with |- context [if ?b then _ else _] => destruct b end; lia.
Qed.

Lemma to_f64_safe f : pos f -> safe (fun fuel => to_f64 fuel f) (fun bits => 0 <= bits < 2 ^ 64).
Proof.
  intros Hf. unfold to_f64, get_f64_bits. rewrite jb_is_zero_spec by apply Hf.
  destruct (Z.eqb_spec (jval (bf_sig f)) 0) as [E|_]; [destruct Hf; lia|].
  set (bits := match bf_sign f with Negative => Z.shiftl 1 63 | Positive => 0 end).
  assert (Hb : u64v bits) by (unfold bits, u64v; destruct (bf_sign f); vm_compute; intuition discriminate).
  refine (safe_bind _ (fun fuel v => let! v := decrease_significand fuel v 54 in _) _ _ (increase_safe f 53 Hf ltac:(lia)) _).
  intros v1 [H1 _].
  refine (safe_bind _ (fun fuel v => _) _ _ (decrease_safe v1 54 H1 ltac:(lia)) _). intros v2 [H2 L2].
  destruct ((-1022 <=? bf_exp v2 + 53) && (bf_exp v2 + 53 <=? 1023)) eqn:C1.
  - destruct (frac_bound v2 54 H2 ltac:(lia) L2) as (fr & Ef & Bf). rewrite Ef. cbn [obind]. change (54 - 1) with 53 in Bf.
    assert (W : forall fr e, 0 <= fr -> u64v (Z.lor (Z.lor bits (Z.shiftl ((e + 1023) mod B) 52 mod B)) (Z.land fr (Z.shiftl 1 52 - 1)))).
    { intros fr' e' Hfr. apply u64v_lor; [apply u64v_lor; [exact Hb|]|].
      - unfold u64v. rewrite <- B_eq. apply Z.mod_pos_bound. pose proof B_val; lia.
      - change (Z.shiftl 1 52 - 1) with (Z.ones 52). rewrite Z.land_ones by lia. pose proof (Z.mod_pos_bound fr' (2 ^ 52) ltac:(lia)). unfold u64v. lia. }
    destruct (fr =? Z.shiftl 1 53).
    + refine (safe_ok _ _ _ (fun _ => eq_refl) _). apply W. apply Z.shiftr_nonneg. lia.
    + refine (safe_ok _ _ _ (fun _ => eq_refl) _). apply W. lia.
  - destruct ((-1074 <=? bf_exp v2 + 53) && (bf_exp v2 + 53 <=? -1023)) eqn:C2.
    + rewrite (Z.mod_small (bf_exp v2 + 53 + 1076)) by (rewrite B_eq; lia).
      refine (safe_bind _ (fun fuel v => _) _ _ (decrease_safe v2 (bf_exp v2 + 53 + 1076) H2 ltac:(lia)) _). intros v3 [H3 L3].
      destruct (frac_bound v3 (bf_exp v2 + 53 + 1076) H3 ltac:(lia) L3) as (fr & Ef & Bf). rewrite Ef. cbn [obind].
      refine (safe_ok _ _ _ (fun _ => eq_refl) _). apply (u64v_lor bits fr Hb).
      assert (2 ^ (bf_exp v2 + 53 + 1076 - 1) < 2 ^ 64) by (apply Z.pow_lt_mono_r; lia). unfold u64v. lia.
    + destruct (1023 <? bf_exp v2 + 53); refine (safe_ok _ _ _ (fun _ => eq_refl) _); [|exact Hb].
      apply (u64v_lor bits _ Hb). vm_compute. intuition discriminate.
Qed.

(** The conversion as a whole: never a panic, and what comes back is the bit pattern of a double. *)
Lemma decimal_safe f : jwf (bf_sig f) -> 0 <= jval (bf_sig f) -> - 2 ^ 63 < bf_exp f < 2 ^ 63 ->
  safe (fun fuel => let! g := to_bin fuel f 54 in to_f64 fuel g) (fun bits => 0 <= bits < 2 ^ 64).
Proof.
  intros Hs Vs He. destruct (Z.eq_dec (jval (bf_sig f)) 0) as [E|N].
  - apply (safe_ok _ _ 0); [|lia]. intros fuel. unfold to_bin. rewrite jb_is_zero_spec by auto.
    destruct (Z.eqb_spec (jval (bf_sig f)) 0); [reflexivity|lia].
  - assert (Hf : pos f) by (split; [exact Hs|lia]).
    refine (safe_bind _ (fun fuel g => to_f64 fuel g) _ _ (to_bin_safe f 54 Hf He ltac:(lia)) _). intros g [Hg _]. apply to_f64_safe, Hg.
Qed.
