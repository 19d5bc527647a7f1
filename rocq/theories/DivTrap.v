(** Dividends from which the division of [JsBigint] never comes back.  When the divisor has a
    small top limb, the estimated digit is too big by more than the one that the code takes away,
    the subtraction wraps, and the next dividend is as big as it can be.  A list of intervals that
    every step maps into itself, and that contains no number below the divisor, is a proof that
    the loop does not end; this file checks such lists and finds them. *)
From Coq Require Import ZArith List Bool Lia.
From Coq Require Import ZifyBool ZifyNat.
From Verif Require Import Outcome LimbsModel LimbsSpec JsBigintModel BigSpec
  LimbsProofs ShiftProofs BigUintProofs JsBigintProofs JsDivProofs NumberSafe.
Import ListNotations.
Open Scope Z_scope.

Lemma last_val v : limbs v -> v <> [] -> last v 1 = val v / B ^ Z.of_nat (length v - 1).
Proof.
  intros Hv Hn. pose proof (app_removelast_last 1 Hn) as E. pose proof B_val as HB.
  assert (L : length v = S (length (removelast v))) by (rewrite E at 1; rewrite app_length; cbn [length]; lia).
  replace (length v - 1)%nat with (length (removelast v)) by lia. rewrite E at 2.
  assert (H : limbs (removelast v)) by (rewrite E in Hv; apply limbs_app in Hv; tauto).
  rewrite val_app, val_cons, val_nil, Z.mul_0_r, Z.add_0_r. pose proof (val_nonneg _ H). pose proof (val_bound _ H).
  rewrite Z.mul_comm, Z.div_add by lia. rewrite Z.div_small by lia. lia.
Qed.

(** One step of the loop: the estimate is [val a] divided by the top limb of [b] in its place, and
    that digit, or that digit less one, is taken. *)
Lemma jb_div_step a b : canon a -> canon b -> b <> [] -> val b <= val a ->
  let L := Z.of_nat (length a) in let n := Z.of_nat (length b) in
  let b1 := val b / B ^ (n - 1) in
  let k := if b1 * B ^ (L - 1) <=? val a then L - 1 else L - 2 in
  let qd := val a / (b1 * B ^ k) in
  n - 1 <= k /\ 0 < b1 /\ 1 <= qd /\
  exists d a', (d = 0 \/ d = 1) /\ canon a' /\ val a' = (val a - (qd - d) * (val b * B ^ (k - (n - 1)))) mod B ^ L /\
    forall fuel res, exists res', jb_div_loop (S fuel) a b res = jb_div_loop fuel a' b res'.
Proof.
  intros Ha Hb Hnb Hge L n b1 k qd. pose proof B_val as HB.
  assert (EL : L = Z.of_nat (length a)) by reflexivity. assert (En : n = Z.of_nat (length b)) by reflexivity.
  assert (Eb1 : b1 = val b / B ^ (n - 1)) by reflexivity.
  assert (Ek0 : k = if b1 * B ^ (L - 1) <=? val a then L - 1 else L - 2) by reflexivity.
  assert (Eq0 : qd = val a / (b1 * B ^ k)) by reflexivity. clearbody qd. clearbody k. clearbody b1. clearbody n. clearbody L.
  destruct (estimate_spec a b Ha Hb Hnb ltac:(lia)) as [qi [d [Ee [Hd [Hlen [Hqi [_ Hcase]]]]]]].
  assert (Hna : a <> []) by (intros ->; destruct b; [congruence|cbn [length] in Hlen; lia]).
  assert (Lb : (1 <= length b)%nat) by (destruct b; [congruence|cbn [length]; lia]).
  assert (Hb1 : last b 1 = b1).
  { rewrite last_val by (auto; apply canon_limbs; auto). rewrite Eb1. f_equal. f_equal. clear - En Lb. lia. }
  assert (Pb1 : 0 < b1).
  { rewrite Eb1. apply Z.div_str_pos. split; [apply Z.pow_pos_nonneg; clear - En Lb HB; lia|]. pose proof (canon_lower b Hb Hnb) as H.
    replace (n - 1) with (Z.of_nat (length b - 1)) by (clear - En Lb; lia). exact H. }
  assert (Ha1 : last a 1 = val a / B ^ (L - 1)).
  { rewrite last_val by (auto; apply canon_limbs; auto). f_equal. f_equal. clear - EL Lb Hlen. lia. }
  assert (PL : 0 < B ^ (L - 1)) by (apply Z.pow_pos_nonneg; clear - EL Lb Hlen HB; lia).
  clear Eb1. assert (Hk : qd = d /\ k = Z.of_nat qi + (n - 1)).
  { destruct Hcase as [(C1 & C2 & C3)|(C1 & C2 & C3)]; rewrite Hb1 in *; rewrite Ha1 in *.
    - assert (Ek : k = L - 1).
      { rewrite Ek0. destruct (Z.leb_spec (b1 * B ^ (L - 1)) (val a)) as [_|H]; [reflexivity|exfalso].
        assert (val a / B ^ (L - 1) < b1) by (apply Z.div_lt_upper_bound; [exact PL|clear - H; lia]). clear - H0 C1. lia. }
      split; [|clear - Ek EL En Hlen C2 Lb; lia]. rewrite Eq0, Ek, C3, Z.mul_comm, Z.div_div by (clear - PL Pb1; lia). reflexivity.
    - assert (Ek : k = L - 2).
      { rewrite Ek0. destruct (Z.leb_spec (b1 * B ^ (L - 1)) (val a)) as [H|_]; [exfalso|reflexivity].
        assert (b1 <= val a / B ^ (L - 1)) by (apply Z.div_le_lower_bound; [exact PL|clear - H; lia]). clear - H0 C1. lia. }
      split; [|clear - Ek EL En Hlen C2 Lb; lia]. rewrite Eq0. rewrite skipn_val in C3 by (apply canon_limbs; auto).
      replace (Z.of_nat (length a - 2)) with (L - 2) in C3 by (clear - EL C2 Lb; lia).
      assert (P2 : 0 < B ^ (L - 2)) by (apply Z.pow_pos_nonneg; clear - EL C2 Lb HB; lia).
      rewrite Ek, C3, Z.mul_comm, Z.div_div by (clear - P2 Pb1; lia). reflexivity. }
  destruct Hk as [Eqd Ek]. clear Eq0 Ek0 Hcase Ha1. split; [lia|]. split; [exact Pb1|]. split; [lia|].
  replace (k - (n - 1)) with (Z.of_nat qi) by lia. rewrite Eqd.
  destruct (mul_vec_spec b (q_vec qi d)) as [m [Em [Hm Hvm]]]; auto; [apply q_vec_limbs; lia|apply q_vec_nonnil|]. rewrite q_vec_val in Hvm.
  destruct (mul_vec_spec b (q_vec qi (d - 1))) as [m' [Em' [Hm' Hvm']]]; auto; [apply q_vec_limbs; lia|apply q_vec_nonnil|].
  rewrite q_vec_val in Hvm'.
  assert (Hcmp : cmp_vec a b <> Lt) by (rewrite cmp_vec_spec by auto; destruct (Z.compare_spec (val a) (val b)); [congruence|lia|congruence]).
  assert (Hstep : forall fuel res, jb_div_loop (S fuel) a b res =
    match std_vec_cmp a m with
    | Lt => jb_div_loop fuel (normalize_vec (sub_vec a m')) b (add_vec res (q_vec qi (d - 1)))
    | _ => jb_div_loop fuel (normalize_vec (sub_vec a m)) b (add_vec res (q_vec qi d))
    end).
  { intros fuel res'. cbn [jb_div_loop]. destruct (cmp_vec a b); [|congruence|];
      rewrite Ee; cbn [obind]; rewrite Em; cbn [obind]; (destruct (std_vec_cmp a m); [reflexivity| |reflexivity]);
      destruct (d =? 0) eqn:E0; try lia; rewrite Em'; reflexivity. }
  assert (Hv : forall m, canon m -> val (normalize_vec (sub_vec a m)) = (val a - val m) mod B ^ L).
  { intros x Hx. rewrite normalize_val, EL. rewrite <- sub_vec_wrap by (apply canon_limbs; auto).
    rewrite Z.mod_small; [reflexivity|]. split; [apply val_nonneg, sub_vec_limbs|].
    rewrite <- (sub_vec_length a x). apply val_bound, sub_vec_limbs. }
  assert (Hc : forall m, canon (normalize_vec (sub_vec a m))) by (intros; apply normalize_canon, sub_vec_limbs).
  destruct (std_vec_cmp a m) eqn:Ec.
  1,3: exists 0, (normalize_vec (sub_vec a m)); (split; [auto|]); (split; [apply Hc|]);
    (split; [rewrite Hv by exact Hm; f_equal; rewrite Hvm; ring|]);
    intros fuel res; eexists; apply Hstep.
  exists 1, (normalize_vec (sub_vec a m')). split; [auto|]. split; [apply Hc|].
  split; [rewrite Hv by exact Hm'; f_equal; rewrite Hvm'; ring|].
  intros fuel res. eexists. apply Hstep.
Qed.

(** * Checking a list of intervals *)

Definition iv := (Z * Z)%type.
Definition inside (v : Z) (i : iv) : Prop := fst i <= v <= snd i.

(** The numbers from [cur] to [hi] are in the intervals of [l]: jump from one interval to the next. *)
Fixpoint cover (fuel : nat) (l : list iv) (cur hi : Z) : bool :=
  (hi <? cur) || match fuel with
                 | O => false
                 | S fuel => match find (fun '(x, y) => (x <=? cur) && (cur <=? y)) l with
                             | Some (_, y) => cover fuel l (y + 1) hi
                             | None => false
                             end
                 end.
Definition covered (l : list iv) (i : iv) : bool := cover (length l) l (fst i) (snd i).

(** What a wrapping subtraction leaves, if all of it wraps or nothing does. *)
Definition wrapped (W : Z) (i : iv) : option iv :=
  let '(x, y) := i in
  if (y <? 0) && (- W <=? x) then Some (x + W, y + W) else if (0 <=? x) && (y <? W) then Some (x, y) else None.

(** The intervals that one step of the division by [p], a number of [n] limbs, leads to. *)
Definition place (p n : Z) (lo : Z) : Z * Z * Z * Z * Z :=
  let b1 := p / B ^ (n - 1) in
  let L := Z.log2 lo / 64 + 1 in
  let c := b1 * B ^ (L - 1) in
  let k := if c <=? lo then L - 1 else L - 2 in
  (c, B ^ (L - 1), B ^ L, b1 * B ^ k, p * B ^ (k - (n - 1))).
Definition image (p n : Z) (i : iv) : option (list iv) :=
  let '(lo, hi) := i in
  let '(c, V, W, D, M) := place p n lo in
  if (p <=? lo) && (lo <=? hi) && (V <=? lo) && (hi <? W) && ((c <=? lo) || (hi <? c)) && (D <=? M) then
    let q1 := lo / D in
    let q2 := hi / D in
    if q1 =? q2 then
      match wrapped W (lo - q1 * M, hi - q1 * M), wrapped W (lo - (q1 - 1) * M, hi - (q1 - 1) * M) with
      | Some i, Some j => Some [i; j]
      | _, _ => None
      end
    else
      match wrapped W (- (q2 * (M - D)), D - 1 - q1 * (M - D)), wrapped W (M - q2 * (M - D), M + D - 1 - q1 * (M - D)) with
      | Some i, Some j => Some [i; j]
      | _, _ => None
      end
  else None.
Definition trap (p n : Z) (l : list iv) : bool :=
  forallb (fun i => match image p n i with Some js => forallb (covered l) js | None => false end) l.

Lemma cover_sound fuel : forall l cur hi v, cover fuel l cur hi = true -> cur <= v <= hi -> exists i, In i l /\ inside v i.
Proof.
  induction fuel as [|fuel IH]; intros l cur hi v H Hv; cbn [cover] in H; [lia|].
  destruct (Z.ltb_spec hi cur) as [G|_]; [lia|]. cbn [orb] in H.
  destruct (find (fun '(x, y) => (x <=? cur) && (cur <=? y)) l) as [[x y]|] eqn:E; [|discriminate]. apply find_some in E as [E1 E2].
  destruct (Z_le_gt_dec v y) as [G|G]; [exists (x, y); split; [exact E1|]; unfold inside; cbn; lia|].
  apply (IH l (y + 1) hi v H). lia.
Qed.
Lemma wrapped_sound W i j v : 0 < W -> wrapped W i = Some j -> inside v i -> inside (v mod W) j.
Proof.
  destruct i as [x y]. unfold wrapped, inside. cbn [fst snd]. intros PW H Hv.
  destruct ((y <? 0) && (- W <=? x)) eqn:E.
  - injection H as <-. cbn [fst snd]. assert (v mod W = v + W); [|lia].
    rewrite <- (Z_mod_plus_full v 1 W), Z.mod_small; lia.
  - destruct ((0 <=? x) && (y <? W)) eqn:E2; [|discriminate]. injection H as <-. cbn [fst snd]. rewrite Z.mod_small; lia.
Qed.

(** Every step from an interval leads to one of its images. *)
Lemma image_sound a b i js : canon a -> canon b -> b <> [] -> image (val b) (Z.of_nat (length b)) i = Some js -> inside (val a) i ->
  exists a' j, canon a' /\ In j js /\ inside (val a') j /\ forall fuel res, exists res', jb_div_loop (S fuel) a b res = jb_div_loop fuel a' b res'.
Proof.
  intros Ha Hb Hnb Him Hin. destruct i as [lo hi]. unfold inside in Hin. cbn [fst snd] in Hin. unfold image in Him.
  destruct (place (val b) (Z.of_nat (length b)) lo) as [[[[c V] W] D] M] eqn:Pl. unfold place in Pl.
  pose proof (Z.div_pos (Z.log2 lo) 64 (Z.log2_nonneg lo) eq_refl) as PL0.
  set (L0 := Z.log2 lo / 64) in *. clearbody L0. injection Pl as Ec EV EW ED EM.
  pose proof B_val as HB. pose proof (canon_pos b Hb Hnb) as Pp.
  destruct (_ && _) eqn:C in Him; [|discriminate]. rewrite !andb_true_iff in C. destruct C as (((((C1 & C2) & C3) & C4) & C5) & C6).
  apply Z.leb_le in C1, C2, C3, C6. apply Z.ltb_lt in C4. apply orb_true_iff in C5. rewrite Z.leb_le, Z.ltb_lt in C5.
  assert (EL : Z.of_nat (length a) = L0 + 1).
  { assert (Hna : a <> []) by (intros ->; rewrite val_nil in Hin; clear - Pp C1 Hin; lia).
    pose proof (canon_lower a Ha Hna) as A1. pose proof (val_bound a (canon_limbs a Ha)) as A2.
    assert (Ll : (1 <= length a)%nat) by (destruct a; [congruence|cbn [length]; clear; lia]).
    assert (H1 : B ^ (L0 + 1 - 1) < B ^ Z.of_nat (length a)) by (clear - EV C3 Hin A2; lia).
    assert (H2 : B ^ Z.of_nat (length a - 1) < B ^ (L0 + 1)) by (clear - EW C4 Hin A1; lia).
    apply Z.pow_lt_mono_r_iff in H1; [|clear - HB; lia|clear; lia]. apply Z.pow_lt_mono_r_iff in H2; [|clear - HB; lia|clear - PL0; lia].
    clear - H1 H2 Ll. lia. }
  pose proof (jb_div_step a b Ha Hb Hnb (Z.le_trans _ _ _ C1 (proj1 Hin))) as S. cbv zeta in S. rewrite EL, Ec, EW in S.
  assert (Ek : (if c <=? val a then L0 + 1 - 1 else L0 + 1 - 2) = if c <=? lo then L0 + 1 - 1 else L0 + 1 - 2).
  { destruct (Z.leb_spec c (val a)), (Z.leb_spec c lo); try reflexivity; clear - Hin C5 H H0; lia. }
  rewrite Ek in S. rewrite Ec in ED, EM. rewrite ED, EM in S. destruct S as (S1 & S2 & S3 & d & a' & Hd & Ca & Va & Hstep).
  assert (PW : 0 < W) by (rewrite <- EW; apply Z.pow_pos_nonneg; clear - HB PL0; lia).
  assert (PD : 0 < D).
  { assert (Lb : (1 <= length b)%nat) by (destruct b; [congruence|cbn [length]; clear; lia]).
    rewrite <- ED. apply Z.mul_pos_pos; [exact S2|]. apply Z.pow_pos_nonneg; [clear - HB; lia|]. clear - S1 Lb. lia. }
  clear Ek ED EM Ec EV EW S1 S2 EL.
  remember (lo / D) as q1 eqn:Eq1. remember (hi / D) as q2 eqn:Eq2. remember (val a / D) as q eqn:Eq.
  pose proof (Z.div_mod (val a) D ltac:(clear - PD; lia)) as Dm. rewrite <- Eq in Dm. pose proof (Z.mod_pos_bound (val a) D PD) as Bm.
  assert (Q1 : q1 <= q) by (subst q1 q; apply Z.div_le_mono; [exact PD|apply Hin]).
  assert (Q2 : q <= q2) by (subst q2 q; apply Z.div_le_mono; [exact PD|apply Hin]).
  clear Eq1 Eq2 Eq. remember (val a mod D) as r eqn:Er. clear Er.
  exists a'. destruct (Z.eqb_spec q1 q2) as [Eq|Nq].
  - destruct (wrapped W (lo - q1 * M, _)) as [i|] eqn:E0; [|discriminate]. destruct (wrapped W (lo - (q1 - 1) * M, _)) as [j|] eqn:E1; [|discriminate].
    injection Him as <-. replace q with q1 in * by (clear - Q1 Q2 Eq; lia). destruct Hd as [-> | ->].
    + exists i. split; [exact Ca|]. split; [left; reflexivity|]. split; [|exact Hstep]. rewrite Va, Z.sub_0_r. apply (wrapped_sound _ _ _ _ PW E0).
      unfold inside. cbn [fst snd]. clear - Hin. lia.
    + exists j. split; [exact Ca|]. split; [right; left; reflexivity|]. split; [|exact Hstep]. rewrite Va. apply (wrapped_sound _ _ _ _ PW E1).
      unfold inside. cbn [fst snd]. clear - Hin. lia.
  - destruct (wrapped W (- (q2 * (M - D)), _)) as [i|] eqn:E0; [|discriminate]. destruct (wrapped W (M - q2 * (M - D), _)) as [j|] eqn:E1; [|discriminate].
    injection Him as <-.
    assert (X0 : 0 <= M - D) by (clear - C6; lia).
    pose proof (Z.mul_le_mono_nonneg_r _ _ _ X0 Q1) as X1. pose proof (Z.mul_le_mono_nonneg_r _ _ _ X0 Q2) as X2.
    assert (X3 : q * (M - D) = q * M - D * q) by (clear; ring).
    destruct Hd as [-> | ->].
    + exists i. split; [exact Ca|]. split; [left; reflexivity|]. split; [|exact Hstep]. rewrite Va, Z.sub_0_r. apply (wrapped_sound _ _ _ _ PW E0).
      unfold inside. cbn [fst snd]. clear - X1 X2 X3 Dm Bm. lia.
    + exists j. split; [exact Ca|]. split; [right; left; reflexivity|]. split; [|exact Hstep]. rewrite Va. apply (wrapped_sound _ _ _ _ PW E1).
      replace ((q - 1) * M) with (q * M - M) by (clear; ring). unfold inside. cbn [fst snd]. clear - X1 X2 X3 Dm Bm. lia.
Qed.

(** From inside a trap the loop never returns. *)
Lemma trap_sound b l : canon b -> b <> [] -> trap (val b) (Z.of_nat (length b)) l = true ->
  forall fuel a res i, canon a -> In i l -> inside (val a) i -> jb_div_loop fuel a b res = NoFuel.
Proof.
  intros Hb Hnb Ht. induction fuel as [|fuel IH]; intros a res i Ha Hi Hin; [reflexivity|].
  unfold trap in Ht. pose proof (proj1 (forallb_forall _ _) Ht i Hi) as H. cbv beta in H.
  destruct (image _ _ i) as [js|] eqn:E; [|discriminate].
  destruct (image_sound a b i js Ha Hb Hnb E Hin) as (a' & j & Ca & Hj & Hin' & Hstep).
  pose proof (proj1 (forallb_forall _ _) H j Hj) as Hc. unfold covered in Hc. destruct j as [x y]. cbn [fst snd] in Hc. unfold inside in Hin'. cbn [fst snd] in Hin'.
  destruct (cover_sound _ _ _ _ _ Hc Hin') as (i' & Hi' & Hv). destruct (Hstep fuel res) as [res' ->]. apply (IH a' res' i' Ca Hi' Hv).
Qed.

(** ** The same check with shifts instead of divisions *)

(** [B] is 2^64, so what [place] computes by powers and divisions is made of shifts; the quotients are
    found by dividing what is left of [lo] and [hi] by one limb. *)
Definition fast_place (p n : Z) (lo : Z) : Z * Z * Z * Z * Z * Z * Z :=
  let b1 := Z.shiftr p (64 * (n - 1)) in
  let L := Z.log2 lo / 64 + 1 in
  let c := Z.shiftl b1 (64 * (L - 1)) in
  let k := if c <=? lo then L - 1 else L - 2 in
  (b1, k, c, Z.shiftl 1 (64 * (L - 1)), Z.shiftl 1 (64 * L), Z.shiftl b1 (64 * k), Z.shiftl p (64 * (k - (n - 1)))).
Definition fast_image (p n : Z) (i : iv) : option (list iv) :=
  let '(lo, hi) := i in
  let '(b1, k, c, V, W, D, M) := fast_place p n lo in
  if ((1 <=? n) && (n - 1 <=? k) && (1 <=? b1)) && ((p <=? lo) && (lo <=? hi) && (V <=? lo) && (hi <? W) && ((c <=? lo) || (hi <? c)) && (D <=? M)) then
    let q1 := Z.shiftr lo (64 * k) / b1 in
    let q2 := Z.shiftr hi (64 * k) / b1 in
    if q1 =? q2 then
      let m := q1 * M in
      match wrapped W (lo - m, hi - m), wrapped W (lo - m + M, hi - m + M) with
      | Some i, Some j => Some [i; j]
      | _, _ => None
      end
    else
      let d1 := q1 * (M - D) in
      let d2 := q2 * (M - D) in
      match wrapped W (- d2, D - 1 - d1), wrapped W (M - d2, M + D - 1 - d1) with
      | Some i, Some j => Some [i; j]
      | _, _ => None
      end
  else None.
Definition fast_trap (p n : Z) (l : list iv) : bool :=
  forallb (fun i => match fast_image p n i with Some js => forallb (covered l) js | None => false end) l.

Lemma B_pow x : 0 <= x -> B ^ x = 2 ^ (64 * x).
Proof. intros. rewrite B_eq, <- Z.pow_mul_r by lia. reflexivity. Qed.
Lemma fast_image_image p n i js : fast_image p n i = Some js -> image p n i = Some js.
Proof.
  destruct i as [lo hi]. unfold fast_image, fast_place, image, place.
  destruct ((1 <=? n) && (n - 1 <=? _) && _) eqn:G; [|discriminate]. cbn [andb].
  set (L := Z.log2 lo / 64 + 1) in *. set (b1 := Z.shiftr p (64 * (n - 1))) in *.
  apply andb_true_iff in G as [G G3]. apply andb_true_iff in G as [G1 G2]. apply Z.leb_le in G1, G2, G3.
  assert (Hb1 : p / B ^ (n - 1) = b1) by (unfold b1; rewrite B_pow, Z.shiftr_div_pow2 by lia; reflexivity). rewrite Hb1.
  assert (HL : 1 <= L) by (destruct (Z.shiftl b1 (64 * (L - 1)) <=? lo); lia).
  assert (Hc : b1 * B ^ (L - 1) = Z.shiftl b1 (64 * (L - 1))) by (rewrite B_pow, Z.shiftl_mul_pow2 by lia; reflexivity). rewrite Hc.
  set (c := Z.shiftl b1 (64 * (L - 1))) in *. set (k := if c <=? lo then L - 1 else L - 2) in *.
  assert (HV : B ^ (L - 1) = Z.shiftl 1 (64 * (L - 1))) by (rewrite B_pow, Z.shiftl_mul_pow2 by lia; lia). rewrite HV.
  assert (HW : B ^ L = Z.shiftl 1 (64 * L)) by (rewrite B_pow, Z.shiftl_mul_pow2 by lia; lia). rewrite HW.
  assert (HD : b1 * B ^ k = Z.shiftl b1 (64 * k)) by (rewrite B_pow, Z.shiftl_mul_pow2 by lia; reflexivity).
  assert (HM : p * B ^ (k - (n - 1)) = Z.shiftl p (64 * (k - (n - 1)))) by (rewrite B_pow, Z.shiftl_mul_pow2 by lia; reflexivity). rewrite HM.
  assert (HQ : forall x, x / (b1 * B ^ k) = Z.shiftr x (64 * k) / b1).
  { intros x. rewrite B_pow by lia. rewrite Z.shiftr_div_pow2 by lia. assert (P2 : 0 < 2 ^ (64 * k)) by (apply Z.pow_pos_nonneg; lia).
    rewrite Z.mul_comm. symmetry. apply Z.div_div; lia. }
  rewrite !HQ, HD. clearbody k c b1. destruct (_ && _); [|discriminate].
  destruct (_ =? _); [|trivial].
  set (q := Z.shiftr lo (64 * k) / b1). set (M := Z.shiftl p (64 * (k - (n - 1)))).
  replace (lo - (q - 1) * M) with (lo - q * M + M) by lia. replace (hi - (q - 1) * M) with (hi - q * M + M) by lia. trivial.
Qed.
Lemma fast_trap_trap p n l : fast_trap p n l = true -> trap p n l = true.
Proof.
  unfold fast_trap, trap. intros H. apply forallb_forall. intros i Hi. apply (proj1 (forallb_forall _ _) H) in Hi. cbv beta in Hi.
  destruct (fast_image p n i) as [js|] eqn:E; [|discriminate]. rewrite (fast_image_image _ _ _ _ E). exact Hi.
Qed.

(** * Finding the intervals *)

(** A search that follows the images, splits intervals where the number of limbs, the form of the
    estimate or the quotient changes, and widens an image near the top to all numbers there
    ([hb] says how near).  Nothing is proved about it: what it finds is checked by [fast_trap]. *)
Fixpoint search (fuel : nat) (p n hb : Z) (todo done : list iv) : option (list iv) :=
  match fuel with
  | O => None
  | S fuel =>
      match todo with
      | [] => Some done
      | (lo, hi) :: todo =>
          if covered done (lo, hi) then search fuel p n hb todo done else
          if lo <? p then None else
          let '(b1, k, c, V, W, D, M) := fast_place p n lo in
          if W <=? hi then search fuel p n hb ((lo, W - 1) :: (W, hi) :: todo) done else
          if (lo <? c) && (c <=? hi) then search fuel p n hb ((lo, c - 1) :: (c, hi) :: todo) done else
          let split := 
            let q1 := Z.shiftr lo (64 * k) / b1 in
            let q2 := Z.shiftr hi (64 * k) / b1 in
            if q1 =? q2 then None
            else let s := (q1 + q2 + 1) / 2 * D in search fuel p n hb ((lo, s - 1) :: (s, hi) :: todo) done in
          match fast_image p n (lo, hi) with
          | Some js =>
              if forallb (fun '(x, _) => p <=? x) js then
                let wide := map (fun '(x, y) => if (y <? W) && (W - Z.shiftr W hb <=? x) then (W - 2 * Z.shiftr W hb, W - 1) else (x, y)) js in
                search fuel p n hb (wide ++ todo) ((lo, hi) :: done)
              else split
          | None => split
          end
      end
  end.

(** The conversion of [m * 10^-e] divides a number from [5^e * 2^54] to [5^e * 2^55 - 1] by [5^e]. *)
Definition hopeless (e hb : Z) : bool :=
  let p := 5 ^ e in
  let n := Z.log2 p / 64 + 1 in
  match search 40 p n hb [(p * 2 ^ 54, p * 2 ^ 55 - 1)] [] with
  | Some l => fast_trap p n l && covered l (p * 2 ^ 54, p * 2 ^ 55 - 1)
  | None => false
  end.

(** Exponents, and how to widen the images for each of them. *)
Definition traps : list (Z * Z) := [
(28, 2); (29, 2); (30, 2); (31, 2); (32, 2); (33, 2); (34, 2); (35, 2); (36, 2); (37, 2); (38, 2); (39, 2);
(40, 2); (41, 4); (42, 33); (43, 31); (44, 31); (45, 26); (46, 25); (47, 21); (48, 18); (49, 18); (50, 15);
(56, 2); (57, 2); (58, 2); (59, 2); (60, 2); (61, 2); (62, 2); (63, 2); (64, 2); (65, 2); (66, 2); (67, 2);
(68, 2); (69, 34); (70, 34); (71, 31); (72, 27); (73, 24); (74, 22); (75, 22); (76, 18); (77, 15); (83, 2);
(84, 2); (85, 2); (86, 2); (87, 2); (88, 2); (89, 2); (90, 2); (91, 2); (92, 2); (93, 2); (94, 2); (95, 2);
(97, 33); (98, 31); (99, 28); (100, 28); (101, 25); (102, 21); (103, 21); (104, 17); (111, 2); (112, 2); (113,
2); (114, 2); (115, 2); (116, 2); (117, 2); (118, 2); (119, 2); (120, 2); (121, 2); (122, 2); (123, 2); (124,
34); (125, 33); (126, 33); (127, 29); (128, 26); (129, 23); (130, 21); (131, 21); (132, 16); (138, 2); (139,
2); (140, 2); (141, 2); (142, 4); (143, 2); (144, 2); (145, 2); (146, 2); (147, 2); (148, 2); (149, 2); (150,
2); (151, 3); (152, 34); (153, 31); (154, 28); (155, 28); (156, 28); (157, 23); (158, 21); (159, 21); (160,
15); (166, 2); (167, 2); (168, 2); (169, 2); (170, 2); (171, 2); (172, 2); (173, 2); (174, 2); (175, 2); (176,
2); (177, 2); (178, 2); (179, 35); (180, 32); (181, 30); (182, 30); (183, 25); (184, 24); (185, 21); (186,
21); (187, 16); (188, 14); (193, 2); (194, 2); (195, 2); (196, 2); (197, 3); (198, 2); (199, 2); (200, 2);
(201, 2); (202, 2); (203, 2); (204, 2); (205, 2); (206, 2); (207, 34); (208, 32); (209, 30); (210, 30); (211,
24); (212, 23); (213, 19); (214, 19); (215, 19); (221, 2); (222, 2); (223, 2); (224, 2); (225, 2); (226, 2);
(227, 2); (228, 2); (229, 2); (230, 2); (231, 2); (232, 2); (233, 2); (234, 5); (235, 32); (236, 32); (237,
29); (238, 25); (239, 23); (240, 20); (241, 18); (242, 16); (243, 13); (249, 2); (250, 2); (251, 2); (252, 3);
(253, 2); (254, 2); (255, 2); (256, 2); (257, 2); (258, 2); (259, 2); (260, 2); (261, 3); (262, 35); (263,
31); (264, 29); (265, 26); (266, 24); (267, 24); (268, 20); (269, 17); (270, 15); (276, 2); (277, 2); (278,
2); (279, 2); (280, 2); (281, 2); (282, 2); (283, 2); (284, 2); (285, 2); (286, 2); (287, 2); (288, 2); (289,
3); (290, 33); (291, 30); (292, 28); (293, 26); (294, 24); (295, 22); (296, 18); (297, 18); (304, 2); (305,
2); (306, 2); (307, 2); (308, 2); (309, 2); (310, 2); (311, 2); (312, 2); (313, 2); (314, 2); (315, 2); (316,
2); (317, 34); (318, 32); (319, 29); (320, 29); (321, 29); (322, 23); (323, 20); (324, 18); (331, 2); (332,
2); (333, 2); (334, 2); (335, 5); (336, 2); (337, 2); (338, 2); (339, 2); (340, 2); (341, 2); (342, 2); (343,
2); (344, 2)].
Lemma traps_hopeless : forallb (fun '(e, hb) => hopeless e hb) traps = true.
Proof. vm_compute. reflexivity. Qed.

Lemma limbs_of_log2 b : canon b -> b <> [] -> Z.log2 (val b) / 64 + 1 = Z.of_nat (length b).
Proof.
  intros Hb Hnb. assert (Lb : (1 <= length b)%nat) by (destruct b; [congruence|cbn [length]; lia]).
  pose proof (canon_pos b Hb Hnb) as Pb.
  pose proof (canon_lower b Hb Hnb) as A1. pose proof (val_bound b (canon_limbs b Hb)) as A2. rewrite B_eq in A1, A2.
  rewrite <- Z.pow_mul_r in A1, A2 by lia.
  assert (64 * Z.of_nat (length b - 1) <= Z.log2 (val b)) by (apply Z.log2_le_pow2; lia).
  assert (Z.log2 (val b) < 64 * Z.of_nat (length b)) by (apply Z.log2_lt_pow2; lia).
  assert (Z.log2 (val b) / 64 = Z.of_nat (length b - 1)); [|lia].
  symmetry. apply Z.div_unique with (Z.log2 (val b) - 64 * Z.of_nat (length b - 1)); lia.
Qed.
Lemma hopeless_trap e hb : hopeless e hb = true ->
  exists l, trap (5 ^ e) (Z.log2 (5 ^ e) / 64 + 1) l = true /\ covered l (5 ^ e * 2 ^ 54, 5 ^ e * 2 ^ 55 - 1) = true.
Proof.
  unfold hopeless. cbv zeta. generalize (search 40 (5 ^ e) (Z.log2 (5 ^ e) / 64 + 1) hb [(5 ^ e * 2 ^ 54, 5 ^ e * 2 ^ 55 - 1)] []).
  intros [l|] H; [|discriminate]. apply andb_true_iff in H as [H1 H2]. exists l. split; [apply fast_trap_trap, H1|exact H2].
Qed.
Lemma div_trapped b l lo hi : canon b -> b <> [] -> trap (val b) (Z.of_nat (length b)) l = true -> covered l (lo, hi) = true ->
  forall fuel a res, canon a -> lo <= val a <= hi -> jb_div_loop fuel a b res = NoFuel.
Proof.
  intros Hb Hnb H1 H2 fuel a res Ha Va. destruct (cover_sound _ _ _ _ (val a) H2 Va) as (i & Hi & Hv).
  exact (trap_sound b l Hb Hnb H1 fuel a res i Ha Hi Hv).
Qed.
Lemma div_hopeless e hb fuel a b res : hopeless e hb = true -> 0 <= e -> canon a -> canon b -> val b = 5 ^ e ->
  5 ^ e * 2 ^ 54 <= val a < 5 ^ e * 2 ^ 55 -> jb_div_loop fuel a b res = NoFuel.
Proof.
  intros H He Ha Hb Vb Va. destruct (hopeless_trap e hb H) as (l & H1 & H2). clear H.
  pose proof (Z.pow_pos_nonneg 5 e eq_refl He) as P5.
  assert (Hnb : b <> []) by (intros ->; rewrite val_nil in Vb; clear - Vb P5; lia).
  rewrite <- Vb in H1. rewrite (limbs_of_log2 b Hb Hnb) in H1.
  apply (div_trapped b l _ _ Hb Hnb H1 H2 fuel a res Ha). clear - Va. lia.
Qed.
