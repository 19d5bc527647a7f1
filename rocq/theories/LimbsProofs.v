(** Proofs about the limb loops of LimbsModel. *)
From Coq Require Import ZArith List Bool Lia Permutation.
From Coq Require Import ZifyBool ZifyNat.
From Verif Require Import Outcome LimbsModel LimbsSpec.
Import ListNotations.
Open Scope Z_scope.

Arguments Z.mul : simpl never.
Arguments Z.add : simpl never.
Arguments Z.pow : simpl never.
Arguments Z.sub : simpl never.

Notation limb d := (0 <= d < B).

Lemma B_eq : B = 2 ^ 64. Proof. reflexivity. Qed.
Lemma B_val : B = 18446744073709551616. Proof. reflexivity. Qed.
Lemma B_pos : 0 < B. Proof. reflexivity. Qed.
Global Opaque B.
#[global] Hint Resolve B_pos : core.

Lemma Bpow_pos n : 0 <= n -> 0 < B ^ n.
Proof. intros; apply Z.pow_pos_nonneg; auto. Qed.

Lemma limbs_B v : limbs v <-> Forall (fun d => limb d) v.
Proof. reflexivity. Qed.

Lemma val_cons d v : val (d :: v) = d + B * val v.
Proof. reflexivity. Qed.

Lemma val_nil : val [] = 0. Proof. reflexivity. Qed.

Lemma limbs_cons d v : limbs (d :: v) <-> limb d /\ limbs v.
Proof.
  unfold limbs; rewrite <- B_eq; split.
  - intros H; inversion H; auto.
  - intros [H1 H2]; constructor; auto.
Qed.

Lemma limbs_nil : limbs []. Proof. constructor. Qed.
#[global] Hint Resolve limbs_nil : core.

Lemma limbs_app a b : limbs (a ++ b) <-> limbs a /\ limbs b.
Proof. apply Forall_app. Qed.

Lemma val_nonneg v : limbs v -> 0 <= val v.
Proof.
  induction v as [|d v IH]; intros H; [simpl; lia|].
  apply limbs_cons in H as [Hd Hv]; rewrite val_cons.
  specialize (IH Hv); pose proof B_pos; nia.
Qed.

Lemma Bpow_S n : B ^ Z.of_nat (S n) = B * B ^ Z.of_nat n.
Proof. rewrite Nat2Z.inj_succ, Z.pow_succ_r; lia. Qed.

Lemma val_bound v : limbs v -> val v < B ^ Z.of_nat (length v).
Proof.
  induction v as [|d v IH]; intros H; [simpl; lia|].
  apply limbs_cons in H as [Hd Hv]; rewrite val_cons.
  cbn [length]; rewrite Bpow_S.
  specialize (IH Hv); pose proof B_pos; nia.
Qed.

Lemma val_app a b : val (a ++ b) = val a + B ^ Z.of_nat (length a) * val b.
Proof.
  induction a as [|d a IH].
  - simpl; change (B ^ Z.of_nat 0) with 1; lia.
  - cbn [app length]; rewrite !val_cons, IH, Bpow_S; ring.
Qed.

Lemma val_repeat0 n : val (repeat 0 n) = 0.
Proof. induction n as [|n IH]; [reflexivity|]. cbn [repeat]; rewrite val_cons, IH; lia. Qed.

Lemma limbs_repeat0 n : limbs (repeat 0 n).
Proof. induction n as [|n IH]; [auto|]. cbn [repeat]; apply limbs_cons; pose proof B_pos; split; [lia|auto]. Qed.

(** ** canonical vectors *)

Lemma last_cons2 (d e : Z) v x : last (d :: e :: v) x = last (e :: v) x.
Proof. reflexivity. Qed.

Lemma last_default (v : list Z) x y : v <> [] -> last v x = last v y.
Proof.
  induction v as [|d v IH]; [congruence|]. intros _.
  destruct v as [|e v]; [reflexivity|]. rewrite !last_cons2; apply IH; congruence.
Qed.

Lemma canon_nil : canon []. Proof. split; [auto|simpl; lia]. Qed.
#[global] Hint Resolve canon_nil : core.

Lemma canon_limbs v : canon v -> limbs v. Proof. intros [H _]; exact H. Qed.
#[global] Hint Resolve canon_limbs : core.

Lemma canon_cons d v : canon (d :: v) -> limb d /\ canon v /\ (v = [] -> d <> 0).
Proof.
  intros [H1 H2]; apply limbs_cons in H1 as [Hd Hv]; split; [auto|]; split.
  - split; auto. destruct v as [|e v]; [simpl; lia|]. rewrite last_cons2 in H2; exact H2.
  - intros ->; exact H2.
Qed.

Lemma canon_cons_intro d v : limb d -> canon v -> (v = [] -> d <> 0) -> canon (d :: v).
Proof.
  intros Hd [Hv Hl] H; split; [apply limbs_cons; auto|].
  destruct v as [|e v]; [simpl; auto|]. rewrite last_cons2; exact Hl.
Qed.

Lemma canon_lower v : canon v -> v <> [] -> B ^ Z.of_nat (length v - 1) <= val v.
Proof.
  induction v as [|d v IH]; [congruence|]. intros Hc _.
  apply canon_cons in Hc as [Hd [Hv Hz]]. rewrite val_cons.
  destruct v as [|e v].
  - specialize (Hz eq_refl). cbn [length Nat.sub]. change (B ^ Z.of_nat 0) with 1. rewrite val_nil; lia.
  - assert (Hne : e :: v <> []) by congruence. specialize (IH Hv Hne).
    replace (length (d :: e :: v) - 1)%nat with (S (length (e :: v) - 1)) by (cbn [length]; lia).
    rewrite Bpow_S. pose proof B_pos. nia.
Qed.

Lemma canon_pos v : canon v -> v <> [] -> 0 < val v.
Proof.
  intros Hc Hne. pose proof (canon_lower v Hc Hne).
  pose proof (Bpow_pos (Z.of_nat (length v - 1)) ltac:(lia)). lia.
Qed.

Lemma canon_val0 v : canon v -> val v = 0 -> v = [].
Proof.
  intros Hc H0. destruct v as [|d v]; [reflexivity|].
  pose proof (canon_pos (d :: v) Hc ltac:(congruence)). lia.
Qed.

Lemma Bpow_mono m n : (m <= n)%nat -> B ^ Z.of_nat m <= B ^ Z.of_nat n.
Proof. intros. apply Z.pow_le_mono_r; [apply B_pos|lia]. Qed.

Lemma canon_len_lt a b : limbs a -> canon b -> (length a < length b)%nat -> val a < val b.
Proof.
  intros Ha Hb Hl.
  assert (Hne : b <> []) by (destruct b; [simpl in Hl; lia|congruence]).
  pose proof (canon_lower b Hb Hne). pose proof (val_bound a Ha).
  pose proof (Bpow_mono (length a) (length b - 1) ltac:(lia)). lia.
Qed.

Lemma B_uniq d x e y : limb d -> limb e -> d + B * x = e + B * y -> d = e /\ x = y.
Proof. intros Hd He H. pose proof B_val as HB. rewrite HB in *. lia. Qed.

Lemma limbs_eq_val a : forall b, limbs a -> limbs b -> length a = length b -> val a = val b -> a = b.
Proof.
  induction a as [|d a IH]; intros [|e b] Ha Hb Hl Hv; try discriminate; [reflexivity|].
  apply limbs_cons in Ha as [Hd Ha]; apply limbs_cons in Hb as [He Hb].
  rewrite !val_cons in Hv. injection Hl as Hl.
  destruct (B_uniq d (val a) e (val b) Hd He Hv) as [-> Hab].
  f_equal; apply IH; auto.
Qed.

Lemma canon_inj a b : canon a -> canon b -> val a = val b -> a = b.
Proof.
  intros Ha Hb Hv. apply limbs_eq_val; auto.
  destruct (Nat.lt_trichotomy (length a) (length b)) as [H|[H|H]]; auto.
  - pose proof (canon_len_lt a b ltac:(auto) Hb H); lia.
  - pose proof (canon_len_lt b a ltac:(auto) Ha H); lia.
Qed.

(** ** normalize *)

Lemma drop_zeros_spec v : exists k, v = repeat 0 k ++ drop_zeros v.
Proof.
  induction v as [|d v [k IH]]; [exists O; reflexivity|].
  cbn [drop_zeros]. destruct (d =? 0) eqn:E.
  - exists (S k). apply Z.eqb_eq in E; subst d. cbn [repeat app]. f_equal; exact IH.
  - exists O; reflexivity.
Qed.

Lemma drop_zeros_hd v : hd 1 (drop_zeros v) <> 0.
Proof.
  induction v as [|d v IH]; [simpl; lia|].
  cbn [drop_zeros]. destruct (d =? 0) eqn:E; [exact IH|]. simpl; lia.
Qed.

Lemma repeat_rev (x : Z) n : rev (repeat x n) = repeat x n.
Proof.
  induction n as [|n IH]; [reflexivity|]. cbn [repeat rev]. rewrite IH.
  clear IH; induction n as [|n IH]; [reflexivity|]. cbn [repeat app]; f_equal; exact IH.
Qed.

Lemma normalize_split v : exists k, v = normalize_vec v ++ repeat 0 k.
Proof.
  unfold normalize_vec. destruct (drop_zeros_spec (rev v)) as [k Hk]. exists k.
  rewrite <- (rev_involutive v) at 1. rewrite Hk at 1.
  rewrite rev_app_distr, repeat_rev. reflexivity.
Qed.

Lemma normalize_val v : val (normalize_vec v) = val v.
Proof.
  destruct (normalize_split v) as [k Hk]. rewrite Hk at 2.
  rewrite val_app, val_repeat0. lia.
Qed.

Lemma normalize_limbs v : limbs v -> limbs (normalize_vec v).
Proof.
  intros H. destruct (normalize_split v) as [k Hk]. rewrite Hk in H.
  apply limbs_app in H. tauto.
Qed.

Lemma last_rev (v : list Z) x : last (rev v) x = hd x v.
Proof.
  destruct v as [|d v]; [reflexivity|]. cbn [rev hd].
  rewrite last_last. reflexivity.
Qed.

Lemma normalize_canon v : limbs v -> canon (normalize_vec v).
Proof.
  intros H; split; [apply normalize_limbs; auto|].
  unfold normalize_vec. rewrite last_rev. apply drop_zeros_hd.
Qed.

Lemma normalize_id v : canon v -> normalize_vec v = v.
Proof.
  intros H. apply canon_inj; auto using normalize_canon. apply normalize_val.
Qed.

Lemma normalize_length v : (length (normalize_vec v) <= length v)%nat.
Proof.
  destruct (normalize_split v) as [k Hk]. rewrite Hk at 2. rewrite app_length. lia.
Qed.

(** ** addition *)

Lemma hd_limb v : limbs v -> limb (hd 0 v).
Proof. destruct v as [|d v]; intros H; simpl; [pose proof B_pos; lia|]. apply limbs_cons in H; tauto. Qed.
Lemma tl_limbs v : limbs v -> limbs (tl v).
Proof. destruct v as [|d v]; intros H; simpl; auto. apply limbs_cons in H; tauto. Qed.
Lemma hd_tl_val v : hd 0 v + B * val (tl v) = val v.
Proof. destruct v as [|d v]; simpl; [lia|reflexivity]. Qed.
Lemma tl_length (v : list Z) : length (tl v) = (length v - 1)%nat.
Proof. destruct v; simpl; lia. Qed.

Lemma add_loop_val long : forall short carry,
  limbs long -> limbs short -> (length short <= length long)%nat -> 0 <= carry <= 1 ->
  val (add_loop long short carry) = val long + val short + carry.
Proof.
  induction long as [|a long IH]; intros short carry Hl Hs Hle Hc.
  - destruct short; [|simpl in Hle; lia]. cbn [add_loop].
    destruct (carry =? 0) eqn:E; [simpl; lia|].
    rewrite val_cons, val_nil. rewrite Z.mod_small by (pose proof B_val; lia). lia.
  - apply limbs_cons in Hl as [Ha Hl]. cbn [add_loop]. rewrite val_cons.
    pose proof (hd_limb short Hs) as Hh.
    set (next := a + hd 0 short + carry) in *.
    assert (Hq : 0 <= next / B <= 1).
    { split; [apply Z.div_pos; [unfold next; lia|apply B_pos]|].
      apply Z.lt_succ_r. apply Z.div_lt_upper_bound; [apply B_pos|]. unfold next; lia. }
    rewrite IH; auto using tl_limbs; [|rewrite tl_length; simpl in Hle; lia].
    rewrite val_cons, <- (hd_tl_val short).
    pose proof (Z.div_mod next B ltac:(pose proof B_pos; lia)). unfold next in *. lia.
Qed.

Lemma add_loop_limbs long : forall short carry, limbs (add_loop long short carry).
Proof.
  induction long as [|a long IH]; intros short carry; cbn [add_loop].
  - destruct (carry =? 0); auto. apply limbs_cons; split; auto. apply Z.mod_pos_bound; auto.
  - apply limbs_cons; split; auto. apply Z.mod_pos_bound; auto.
Qed.

Theorem add_vec_val a b : limbs a -> limbs b -> val (add_vec a b) = val a + val b.
Proof.
  intros Ha Hb. unfold add_vec. destruct (length a <? length b)%nat eqn:E;
  rewrite add_loop_val; auto; lia.
Qed.

Lemma add_vec_limbs a b : limbs (add_vec a b).
Proof. unfold add_vec. destruct (length a <? length b)%nat; apply add_loop_limbs. Qed.

Lemma add_loop_length long short carry : (length long <= length (add_loop long short carry))%nat.
Proof.
  revert short carry; induction long as [|a long IH]; intros; cbn [add_loop length]; [lia|].
  specialize (IH (tl short) ((a + hd 0 short + carry) / B)). lia.
Qed.

(** The last limb of a sum of canonical vectors is not zero. *)
Lemma add_loop_canon long : forall short carry,
  canon long -> limbs short -> (length short <= length long)%nat -> 0 <= carry <= 1 ->
  canon (add_loop long short carry).
Proof.
  intros short carry Hl Hs Hle Hc.
  split; [apply add_loop_limbs|].
  (* compare with the normalized vector by length *)
  revert short carry Hl Hs Hle Hc.
  induction long as [|a long IH]; intros short carry Hl Hs Hle Hc.
  - cbn [add_loop]. destruct (carry =? 0) eqn:E; simpl; [lia|].
    rewrite Z.mod_small by (pose proof B_val; lia). lia.
  - apply canon_cons in Hl as [Ha [Hl Hz]]. cbn [add_loop].
    pose proof (hd_limb short Hs) as Hh.
    set (next := a + hd 0 short + carry) in *.
    assert (Hq : 0 <= next / B <= 1).
    { split; [apply Z.div_pos; [unfold next; lia|apply B_pos]|].
      apply Z.lt_succ_r. apply Z.div_lt_upper_bound; [apply B_pos|]. unfold next; lia. }
    specialize (IH (tl short) (next / B) Hl (tl_limbs _ Hs)).
    rewrite tl_length in IH. specialize (IH ltac:(simpl in Hle; lia) Hq).
    destruct (add_loop long (tl short) (next / B)) as [|e r] eqn:Er.
    + destruct long as [|a' long].
      * cbn [add_loop] in Er. specialize (Hz eq_refl).
        destruct (next / B =? 0) eqn:En; [|discriminate].
        cbn [last]. apply Z.eqb_eq in En. apply Z.div_small_iff in En; [|pose proof B_pos; lia].
        rewrite Z.mod_small by lia. unfold next; lia.
      * cbn [add_loop] in Er; discriminate.
    + rewrite last_cons2; exact IH.
Qed.

Theorem add_vec_canon a b : canon a -> canon b -> canon (add_vec a b).
Proof.
  intros Ha Hb. unfold add_vec. destruct (length a <? length b)%nat eqn:E;
  apply add_loop_canon; auto; lia.
Qed.

(** ** subtraction *)

Lemma borrow_eq next : - B <= next < B -> Z.land (Z.shiftr next 64) 1 = if next <? 0 then 1 else 0.
Proof.
  intros H. rewrite Z.shiftr_div_pow2 by lia. rewrite <- B_eq.
  destruct (next <? 0) eqn:E.
  - replace (next / B) with (-1); [reflexivity|].
    apply Z.div_unique_pos with (r := next + B); lia.
  - rewrite Z.div_small by lia. reflexivity.
Qed.

Lemma sub_loop_val lhs : forall rhs borrow,
  limbs lhs -> limbs rhs -> (length rhs <= length lhs)%nat -> 0 <= borrow <= 1 ->
  exists bo, 0 <= bo <= 1 /\
    val (sub_loop lhs rhs borrow) = val lhs - val rhs - borrow + bo * B ^ Z.of_nat (length lhs).
Proof.
  induction lhs as [|a lhs IH]; intros rhs borrow Hl Hr Hle Hb.
  - destruct rhs; [|simpl in Hle; lia]. exists borrow; split; [lia|].
    cbn [sub_loop length]. change (B ^ Z.of_nat 0) with 1. rewrite val_nil; lia.
  - apply limbs_cons in Hl as [Ha Hl]. cbn [sub_loop].
    pose proof (hd_limb rhs Hr) as Hh.
    set (next := a - hd 0 rhs - borrow) in *.
    rewrite borrow_eq by (unfold next; lia).
    set (bo1 := if next <? 0 then 1 else 0).
    assert (Hb1 : 0 <= bo1 <= 1) by (unfold bo1; destruct (next <? 0); lia).
    destruct (IH (tl rhs) bo1 Hl (tl_limbs _ Hr)) as [bo [Hbo Hv]].
    { rewrite tl_length; simpl in Hle; lia. }
    { exact Hb1. }
    exists bo; split; [auto|]. rewrite val_cons, Hv. cbn [length]. rewrite Bpow_S, val_cons.
    rewrite <- (hd_tl_val rhs).
    assert (Hm : next mod B = next + bo1 * B).
    { unfold bo1; destruct (next <? 0) eqn:E.
      - symmetry; apply Z.mod_unique_pos with (q := -1); unfold next in *; lia.
      - rewrite Z.mod_small; unfold next in *; lia. }
    rewrite Hm. unfold next. ring_simplify. lia.
Qed.

Lemma sub_loop_limbs lhs : forall rhs borrow, limbs (sub_loop lhs rhs borrow).
Proof.
  induction lhs as [|a lhs IH]; intros; cbn [sub_loop]; auto.
  apply limbs_cons; split; auto. apply Z.mod_pos_bound; auto.
Qed.

Lemma sub_loop_length lhs : forall rhs borrow, length (sub_loop lhs rhs borrow) = length lhs.
Proof. induction lhs as [|a lhs IH]; intros; cbn [sub_loop length]; auto. Qed.

Lemma sub_vec_limbs a b : limbs (sub_vec a b).
Proof. apply sub_loop_limbs. Qed.
Lemma sub_vec_length a b : length (sub_vec a b) = length a.
Proof. apply sub_loop_length. Qed.

Theorem sub_vec_val a b :
  limbs a -> limbs b -> (length b <= length a)%nat -> val b <= val a ->
  val (sub_vec a b) = val a - val b.
Proof.
  intros Ha Hb Hl Hv. unfold sub_vec.
  destruct (sub_loop_val a b 0 Ha Hb Hl ltac:(lia)) as [bo [Hbo E]].
  pose proof (val_bound _ (sub_loop_limbs a b 0)) as Hub. rewrite sub_loop_length in Hub.
  pose proof (val_nonneg _ (sub_loop_limbs a b 0)).
  pose proof (val_bound a Ha). pose proof (val_nonneg b Hb).
  assert (bo = 0 \/ bo = 1) as [->| ->] by lia; lia.
Qed.

(** Without an order hypothesis the subtraction wraps. *)
Lemma sub_vec_mod a b :
  limbs a -> limbs b -> (length b <= length a)%nat ->
  val (sub_vec a b) = (val a - val b) mod B ^ Z.of_nat (length a).
Proof.
  intros Ha Hb Hl. unfold sub_vec.
  destruct (sub_loop_val a b 0 Ha Hb Hl ltac:(lia)) as [bo [Hbo E]].
  pose proof (val_bound _ (sub_loop_limbs a b 0)) as Hub. rewrite sub_loop_length in Hub.
  pose proof (val_nonneg _ (sub_loop_limbs a b 0)).
  apply Z.mod_unique_pos with (q := - bo); [lia|]. rewrite E. ring.
Qed.

Lemma canon_len_le a b : canon a -> limbs b -> val a <= val b -> (length a <= length b)%nat.
Proof.
  intros Ha Hb Hv. destruct (Nat.le_gt_cases (length a) (length b)); auto.
  pose proof (canon_len_lt b a Hb Ha H). lia.
Qed.

(** ** comparison *)

Lemma cmp_digits_rev a : forall b, limbs a -> limbs b -> length a = length b ->
  cmp_digits (rev a) (rev b) = (val a ?= val b).
Proof.
  induction a as [|d a IH] using rev_ind; intros b Ha Hb Hl.
  - destruct b; [reflexivity|discriminate].
  - destruct b as [|e b _] using rev_ind.
    { rewrite app_length in Hl; simpl in Hl; lia. }
    rewrite !app_length in Hl; cbn [length] in Hl.
    apply limbs_app in Ha as [Ha Hd]; apply limbs_app in Hb as [Hb He].
    apply limbs_cons in Hd as [Hd _]; apply limbs_cons in He as [He _].
    rewrite !rev_app_distr. cbn [rev app cmp_digits].
    rewrite !val_app, !val_cons, !val_nil.
    replace (length b) with (length a) by lia.
    specialize (IH b Ha Hb ltac:(lia)).
    pose proof (val_bound a Ha). pose proof (val_bound b Hb).
    pose proof (val_nonneg a Ha). pose proof (val_nonneg b Hb).
    replace (length b) with (length a) in * by lia.
    set (P := B ^ Z.of_nat (length a)) in *.
    destruct (d =? e) eqn:E.
    + apply Z.eqb_eq in E; subst e. rewrite IH.
      destruct (Z.compare_spec (val a) (val b)); symmetry;
        [apply Z.compare_eq_iff|apply Z.compare_lt_iff|apply Z.compare_gt_iff]; nia.
    + destruct (Z.compare_spec d e); symmetry;
        [lia|apply Z.compare_lt_iff|apply Z.compare_gt_iff]; nia.
Qed.

Theorem cmp_vec_spec a b : canon a -> canon b -> cmp_vec a b = (val a ?= val b).
Proof.
  intros Ha Hb. unfold cmp_vec. destruct (length a =? length b)%nat eqn:E.
  - apply cmp_digits_rev; auto; lia.
  - destruct (Nat.compare_spec (length a) (length b)); [lia| |]; symmetry.
    + apply Z.compare_lt_iff. apply canon_len_lt; auto.
    + apply Z.compare_gt_iff. apply canon_len_lt; auto.
Qed.

Lemma cmp_vec_eq_len a b : limbs a -> limbs b -> length a = length b -> cmp_vec a b = (val a ?= val b).
Proof.
  intros Ha Hb Hl. unfold cmp_vec. rewrite Hl, Nat.eqb_refl. apply cmp_digits_rev; auto.
Qed.

(** ** multiplication *)

Lemma add_to_vec_spec vec : forall i x,
  limbs vec -> 0 <= x <= (B - 1) * (B - 1) -> (i < length vec)%nat ->
  val vec + x * B ^ Z.of_nat i < B ^ Z.of_nat (length vec) ->
  exists r, add_to_vec vec i x = Ok r /\ limbs r /\ length r = length vec /\
            val r = val vec + x * B ^ Z.of_nat i.
Proof.
  induction vec as [|d vec IH]; intros i x Hl Hx Hi Hb; [simpl in Hi; lia|].
  apply limbs_cons in Hl as [Hd Hl]. pose proof B_val as HB. pose proof (val_nonneg vec Hl) as Hnn.
  rewrite val_cons in Hb |- *. cbn [length] in Hb. rewrite Bpow_S in Hb.
  destruct i as [|i].
  - change (B ^ Z.of_nat 0) with 1 in *.
    cbn [add_to_vec]. set (sum := d + x).
    assert (Hsum : 0 <= sum < B * B) by (unfold sum; nia).
    destruct (B * B <=? sum) eqn:Eov; [lia|].
    pose proof (Z.div_mod sum B ltac:(lia)) as Hdm.
    pose proof (Z.mod_pos_bound sum B ltac:(lia)) as Hmb.
    assert (Hc : 0 <= sum / B < B) by (split; [apply Z.div_pos; lia|apply Z.div_lt_upper_bound; lia]).
    destruct (0 <? sum / B) eqn:Ec.
    + destruct vec as [|e vec0] eqn:Ev.
      { exfalso. cbn [length] in Hb. change (B ^ Z.of_nat 0) with 1 in Hb.
        rewrite val_nil in Hb. unfold sum in *. nia. }
      rewrite <- Ev in *. clear Ev.
      destruct (IH O (sum / B) Hl) as [r [Er [Hr [Hlr Hvr]]]].
      * split; [lia|]. nia.
      * destruct vec; [|simpl; lia]. exfalso. cbn [length] in Hb.
        change (B ^ Z.of_nat 0) with 1 in Hb. rewrite val_nil in Hb. unfold sum in *. nia.
      * change (B ^ Z.of_nat 0) with 1. unfold sum in *. nia.
      * rewrite Er. eexists; split; [reflexivity|]. split; [apply limbs_cons; auto|].
        split; [cbn [length]; lia|]. rewrite val_cons, Hvr.
        change (B ^ Z.of_nat 0) with 1. unfold sum in *. lia.
    + eexists; split; [reflexivity|]. split; [apply limbs_cons; auto|].
      split; [reflexivity|]. rewrite val_cons. unfold sum in *. nia.
  - rewrite Bpow_S in *. cbn [add_to_vec]. cbn [length] in Hi.
    destruct (IH i x Hl Hx ltac:(lia)) as [r [Er [Hr [Hlr Hvr]]]].
    { nia. }
    rewrite Er. eexists; split; [reflexivity|]. split; [apply limbs_cons; auto|].
    split; [cbn [length]; lia|]. rewrite val_cons, Hvr. ring.
Qed.

Definition zsum (l : list Z) : Z := fold_right Z.add 0 l.

Lemma zsum_app a b : zsum (a ++ b) = zsum a + zsum b.
Proof. induction a as [|x a IH]; simpl; [reflexivity|]. unfold zsum in *; cbn [fold_right]; lia. Qed.

Lemma zsum_perm a b : Permutation a b -> zsum a = zsum b.
Proof. intros H; induction H; unfold zsum in *; cbn [fold_right]; lia. Qed.

Lemma zsum_nonneg l : Forall (fun x => 0 <= x) l -> 0 <= zsum l.
Proof. induction 1; unfold zsum in *; cbn [fold_right]; lia. Qed.

Definition term (lhs rhs : list Z) (p : nat * nat) : Z :=
  nth (snd p) lhs 0 * nth (fst p - snd p) rhs 0 * B ^ Z.of_nat (fst p).

Definition ix_ok (n m : nat) (p : nat * nat) : Prop :=
  (snd p < n)%nat /\ (snd p <= fst p)%nat /\ (fst p - snd p < m)%nat.

Lemma nth_limb v k : limbs v -> limb (nth k v 0).
Proof.
  intros H. destruct (nth_in_or_default k v 0) as [Hin| ->].
  - unfold limbs in H; rewrite Forall_forall in H. apply H; auto.
  - pose proof B_pos; lia.
Qed.

Lemma term_nonneg lhs rhs p : limbs lhs -> limbs rhs -> 0 <= term lhs rhs p.
Proof.
  intros. unfold term. pose proof (nth_limb lhs (snd p) H).
  pose proof (nth_limb rhs (fst p - snd p) H0).
  pose proof (Bpow_pos (Z.of_nat (fst p)) ltac:(lia)).
  apply Z.mul_nonneg_nonneg; nia.
Qed.

Lemma mul_loop_spec lhs rhs ixs : forall vec,
  limbs lhs -> limbs rhs -> Forall (ix_ok (length lhs) (length rhs)) ixs ->
  limbs vec -> length vec = (length lhs + length rhs)%nat ->
  val vec + zsum (map (term lhs rhs) ixs) < B ^ Z.of_nat (length vec) ->
  exists r, mul_loop lhs rhs ixs vec = Ok r /\ limbs r /\ length r = length vec /\
            val r = val vec + zsum (map (term lhs rhs) ixs).
Proof.
  induction ixs as [|[i j] ixs IH]; intros vec Hl Hr Hix Hv Hlen Hb.
  - exists vec. cbn. repeat split; auto. unfold zsum; cbn; lia.
  - inversion Hix as [|? ? Hij Hixs]; subst. destruct Hij as [Hj [Hji Hk]]. cbn [fst snd] in *.
    cbn [mul_loop map] in *.
    rewrite (nth_error_nth' lhs 0 Hj), (nth_error_nth' rhs 0 Hk).
    assert (Hterm : zsum (term lhs rhs (i, j) :: map (term lhs rhs) ixs)
             = term lhs rhs (i,j) + zsum (map (term lhs rhs) ixs)) by reflexivity.
    rewrite Hterm in Hb |- *. clear Hterm.
    assert (Et : term lhs rhs (i, j) = nth j lhs 0 * nth (i - j) rhs 0 * B ^ Z.of_nat i) by reflexivity.
    rewrite Et in Hb |- *. clear Et.
    assert (Hnn : 0 <= zsum (map (term lhs rhs) ixs)).
    { apply zsum_nonneg. apply Forall_map. apply Forall_forall. intros; apply term_nonneg; auto. }
    pose proof (nth_limb lhs j Hl). pose proof (nth_limb rhs (i - j) Hr).
    destruct (add_to_vec_spec vec i (nth j lhs 0 * nth (i - j) rhs 0) Hv) as [r [Er [Hrl [Hrlen Hrv]]]].
    + split; [nia|]. nia.
    + lia.
    + lia.
    + rewrite Er. cbn [obind].
      destruct (IH r Hl Hr Hixs Hrl ltac:(lia)) as [s [Es [Hsl [Hslen Hsv]]]].
      { rewrite Hrlen, Hrv. lia. }
      exists s. rewrite Es. repeat split; auto; [lia|].
      rewrite Hsv, Hrv. lia.
Qed.

(** All index pairs, as a product. *)
Definition all_pairs (n m : nat) : list (nat * nat) :=
  map (fun p => (fst p + snd p, fst p)%nat) (list_prod (seq 0 n) (seq 0 m)).

Lemma mul_indices_in lm rm p :
  In p (mul_indices lm rm) <-> ix_ok (S lm) (S rm) p.
Proof.
  unfold mul_indices, ix_ok. rewrite in_flat_map. destruct p as [i j]; cbn [fst snd]. split.
  - intros [i' [Hi Hj]]. apply in_map_iff in Hj as [j' [E Hj]]. injection E as -> ->.
    apply in_seq in Hi. apply in_seq in Hj. destruct (i <? lm)%nat eqn:El; lia.
  - intros [H1 [H2 H3]]. exists i. split; [apply in_seq; lia|].
    apply in_map_iff. exists j. split; [reflexivity|]. apply in_seq.
    destruct (i <? lm)%nat eqn:El; lia.
Qed.

Lemma NoDup_app_intro {A} (a b : list A) :
  NoDup a -> NoDup b -> (forall x, In x a -> In x b -> False) -> NoDup (a ++ b).
Proof.
  intros Ha Hb H. induction Ha as [|x a Hni Hnd IH]; cbn [app]; auto. constructor.
  - rewrite in_app_iff. intros [Hin|Hin]; [contradiction|]. apply (H x); [left; auto|auto].
  - apply IH. intros y H1 H2. apply (H y); [right; auto|auto].
Qed.

Lemma NoDup_flat_map_pairs (l : list nat) (f : nat -> list nat) :
  NoDup l -> (forall i, NoDup (f i)) -> NoDup (flat_map (fun i => map (fun j => (i, j)) (f i)) l).
Proof.
  intros Hl Hf. induction Hl as [|i l Hni Hnd IH]; cbn [flat_map]; [constructor|].
  apply NoDup_app_intro; auto.
  - apply FinFun.Injective_map_NoDup; auto. intros x y E; congruence.
  - intros [i' j'] H1 H2. apply in_map_iff in H1 as [j1 [E1 _]].
    apply in_flat_map in H2 as [i2 [Hi2 H2]]. apply in_map_iff in H2 as [j2 [E2 _]].
    congruence.
Qed.

Lemma mul_indices_NoDup lm rm : NoDup (mul_indices lm rm).
Proof.
  unfold mul_indices.
  apply (NoDup_flat_map_pairs (seq 0 (lm + rm + 1))
           (fun i => seq (i - rm) (S (if (i <? lm)%nat then i else lm) - (i - rm)))).
  - apply seq_NoDup.
  - intros; apply seq_NoDup.
Qed.

Lemma NoDup_list_prod (l m : list nat) : NoDup l -> NoDup m -> NoDup (list_prod l m).
Proof.
  intros Hl Hm. induction Hl as [|x l Hni Hnd IH]; cbn [list_prod]; [constructor|].
  apply NoDup_app_intro; auto.
  - apply FinFun.Injective_map_NoDup; auto. intros a b E; congruence.
  - intros [a b] H1 H2. apply in_map_iff in H1 as [y [E _]].
    apply in_prod_iff in H2. destruct H2. injection E as -> ->. contradiction.
Qed.

Lemma mul_indices_perm lm rm :
  Permutation (mul_indices lm rm) (all_pairs (S lm) (S rm)).
Proof.
  apply NoDup_Permutation.
  - apply mul_indices_NoDup.
  - unfold all_pairs. apply FinFun.Injective_map_NoDup.
    + intros [a b] [c d] E. cbn [fst snd] in E. injection E as E1 E2. f_equal; lia.
    + apply NoDup_list_prod; apply seq_NoDup.
  - intros [i j]. rewrite mul_indices_in. unfold all_pairs, ix_ok. rewrite in_map_iff. cbn [fst snd].
    split.
    + intros [H1 [H2 H3]]. exists (j, i - j)%nat. cbn [fst snd]. split; [f_equal; lia|].
      apply in_prod_iff. rewrite !in_seq. lia.
    + intros [[a b] [E Hin]]. cbn [fst snd] in E. injection E as <- <-.
      apply in_prod_iff in Hin. rewrite !in_seq in Hin. lia.
Qed.

Lemma nth_seq_val v : zsum (map (fun k => nth k v 0 * B ^ Z.of_nat k) (seq 0 (length v))) = val v.
Proof.
  induction v as [|d v IH]; [reflexivity|].
  cbn [length seq map]. rewrite <- seq_shift, map_map. rewrite val_cons, <- IH.
  change (zsum (nth 0 (d :: v) 0 * B ^ Z.of_nat 0 :: ?l)) with
    (nth 0 (d :: v) 0 * B ^ Z.of_nat 0 + zsum l).
  change (nth 0 (d :: v) 0 * B ^ Z.of_nat 0) with (d * 1).
  match goal with |- _ + zsum (map ?f ?l) = _ + _ * zsum (map ?g ?l) =>
    assert (H : forall m, zsum (map f m) = B * zsum (map g m)) end.
  { induction m as [|k m IHm]; [unfold zsum; cbn; lia|].
    unfold zsum in *; cbn [map fold_right]. rewrite IHm. cbn [nth]. rewrite Bpow_S. ring. }
  rewrite H. lia.
Qed.

Lemma all_pairs_sum lhs rhs :
  zsum (map (term lhs rhs) (all_pairs (length lhs) (length rhs))) = val lhs * val rhs.
Proof.
  unfold all_pairs. rewrite map_map. rewrite <- (nth_seq_val lhs), <- (nth_seq_val rhs).
  generalize (seq 0 (length lhs)) as ls, (seq 0 (length rhs)) as rs. intros ls rs.
  induction ls as [|j ls IH]; [cbn; reflexivity|].
  cbn [list_prod map]. rewrite map_app, zsum_app, IH, map_map.
  change (zsum (nth j lhs 0 * B ^ Z.of_nat j :: ?l)) with (nth j lhs 0 * B ^ Z.of_nat j + zsum l).
  rewrite Z.mul_add_distr_r. f_equal. clear IH.
  induction rs as [|k rs IHr]; [cbn; lia|].
  unfold zsum in *; cbn [map fold_right]. rewrite IHr.
  unfold term; cbn [fst snd]. replace (j + k - j)%nat with k by lia.
  rewrite Nat2Z.inj_add, Z.pow_add_r by lia. ring.
Qed.

Lemma val_lt_mul a b : limbs a -> limbs b -> val a * val b < B ^ Z.of_nat (length a + length b).
Proof.
  intros Ha Hb. rewrite Nat2Z.inj_add, Z.pow_add_r by lia.
  pose proof (val_bound a Ha). pose proof (val_bound b Hb).
  pose proof (val_nonneg a Ha). pose proof (val_nonneg b Hb). nia.
Qed.

Theorem mul_vec_spec a b : limbs a -> limbs b -> a <> [] -> b <> [] ->
  exists r, mul_vec a b = Ok r /\ canon r /\ val r = val a * val b.
Proof.
  intros Ha Hb Hna Hnb. unfold mul_vec.
  destruct (length a) as [|la] eqn:Ela; [destruct a; simpl in Ela; congruence|].
  destruct (length b) as [|lb] eqn:Elb; [destruct b; simpl in Elb; congruence|].
  pose proof (zsum_perm _ _ (Permutation_map (term a b) (mul_indices_perm la lb))) as Hperm.
  rewrite <- Ela, <- Elb, all_pairs_sum in Hperm.
  destruct (mul_loop_spec a b (mul_indices la lb) (new_resize (la + lb + 2))) as [r [Er [Hr [Hlr Hvr]]]]; auto.
  - apply Forall_forall. intros p Hp. apply mul_indices_in in Hp. rewrite Ela, Elb; exact Hp.
  - apply limbs_repeat0.
  - unfold new_resize. rewrite repeat_length. lia.
  - unfold new_resize. rewrite val_repeat0, repeat_length, Hperm.
    pose proof (val_lt_mul a b Ha Hb). replace (la + lb + 2)%nat with (length a + length b)%nat by lia. rewrite Z.add_0_l. exact H.
  - rewrite Er. cbn [obind]. eexists; split; [reflexivity|]. split; [apply normalize_canon; auto|].
    rewrite normalize_val, Hvr, Hperm. unfold new_resize. rewrite val_repeat0. lia.
Qed.
