(** Paths: normalization computes the canonical representative. *)
From Coq Require Import ZArith List Bool Lia.
From Verif Require Import ValueModel ParserModel BTreeProofs ParserProofs.
Import ListNotations.
Open Scope Z_scope.

(** ** Specification *)

(** Component lists that name the same place when empty components are dropped and a name
    followed by [..] cancels. *)
Inductive same_place : list (list Z) -> list (list Z) -> Prop :=
| pl_refl l : same_place l l
| pl_sym a b : same_place a b -> same_place b a
| pl_trans a b c : same_place a b -> same_place b c -> same_place a c
| pl_empty a b : same_place (a ++ [] :: b) (a ++ b)
| pl_up a x b : x <> [] -> x <> dotdot -> same_place (a ++ x :: dotdot :: b) (a ++ b).

(** Canonical component lists: no empty component, [..] only at the front. *)
Definition canonical (l : list (list Z)) : Prop :=
  exists k names, l = repeat dotdot k ++ names /\ Forall (fun x => x <> [] /\ x <> dotdot /\ ~ In 47 x) names.

(** ** Splitting and joining *)
Lemma split_ne l : split_slash l <> [].
Proof. induction l as [|c r IH]; cbn; [discriminate|]. destruct (c =? 47); [discriminate|]. destruct (split_slash r); [contradiction|discriminate]. Qed.

Lemma split_no_slash l : Forall (fun x => ~ In 47 x) (split_slash l).
Proof.
  induction l as [|c r IH]; cbn; [repeat constructor; auto|].
  destruct (c =? 47) eqn:E; [constructor; auto|].
  destruct (split_slash r) as [|h t]; inversion IH; subst; repeat constructor; cbn.
  - intros [H|[]]. apply Z.eqb_neq in E. congruence.
  - intros [H|H]; [apply Z.eqb_neq in E; congruence|contradiction].
  - assumption.
Qed.

Lemma split_app_slash a b : split_slash (a ++ 47 :: b) = split_slash a ++ split_slash b.
Proof.
  induction a as [|c a IH]; [reflexivity|]. cbn. destruct (c =? 47); [rewrite IH; reflexivity|].
  rewrite IH. destruct (split_slash a) eqn:E; [exfalso; exact (split_ne _ E)|]. reflexivity.
Qed.

Lemma split_single x : ~ In 47 x -> split_slash x = [x].
Proof.
  induction x as [|c x IH]; [reflexivity|]. intros H. cbn in *.
  destruct (Z.eqb_spec c 47) as [->|n]; [tauto|]. rewrite IH by tauto. reflexivity.
Qed.

Lemma split_join l : l <> [] -> Forall (fun x => ~ In 47 x) l -> split_slash (join_slash l) = l.
Proof.
  intros Hne H. induction H as [|x l Hx Hl IH]; [congruence|]. destruct l as [|y l].
  - apply split_single, Hx.
  - change (join_slash (x :: y :: l)) with (x ++ 47 :: join_slash (y :: l)).
    rewrite split_app_slash, split_single, IH by (assumption || discriminate). reflexivity.
Qed.

(** ** Normalization of component lists *)
Definition nstep := normalize_step.
Definition norm_rev (acc l : list (list Z)) : list (list Z) := fold_left normalize_step l acc.
Definition norm (l : list (list Z)) : list (list Z) := rev (norm_rev [] l).

Lemma norm_rev_app acc a b : norm_rev acc (a ++ b) = norm_rev (norm_rev acc a) b.
Proof. apply fold_left_app. Qed.

Lemma nstep_empty acc : nstep acc [] = acc.
Proof. reflexivity. Qed.
Lemma nstep_name acc x : x <> [] -> x <> dotdot -> nstep acc x = x :: acc.
Proof.
  intros H1 H2. unfold nstep, normalize_step.
  destruct (str_eqb x []) eqn:E1; [apply str_eqb_eq in E1; contradiction|].
  destruct (str_eqb x dotdot) eqn:E2; [apply str_eqb_eq in E2; contradiction|]. reflexivity.
Qed.
Lemma nstep_up_name acc x : x <> dotdot -> nstep (x :: acc) dotdot = acc.
Proof.
  intros H. unfold nstep, normalize_step. cbn [str_eqb].
  destruct (str_eqb dotdot []) eqn:E1; [discriminate|]. rewrite str_eqb_refl.
  destruct (str_eqb x dotdot) eqn:E2; [apply str_eqb_eq in E2; contradiction|]. reflexivity.
Qed.
Lemma nstep_up acc : (acc = [] \/ exists l, acc = dotdot :: l) -> nstep acc dotdot = dotdot :: acc.
Proof. intros [->|(l & ->)]; reflexivity. Qed.

(** Reversed canonical lists are what the loop maintains. *)
Definition rcanon (acc : list (list Z)) : Prop :=
  exists k names, acc = names ++ repeat dotdot k /\ Forall (fun x => x <> [] /\ x <> dotdot /\ ~ In 47 x) names.

Lemma nstep_canon acc x : rcanon acc -> ~ In 47 x -> rcanon (nstep acc x).
Proof.
  intros (k & names & -> & Hn) Hx.
  destruct (list_eq_dec Z.eq_dec x []) as [->|H1]; [exists k, names; auto|].
  destruct (list_eq_dec Z.eq_dec x dotdot) as [->|H2].
  - destruct names as [|y names].
    + exists (S k), []. split; [|constructor]. cbn [app]. rewrite nstep_up; [reflexivity|]. destruct k; [left|right; eexists]; reflexivity.
    + inversion Hn as [|? ? (Hy1 & Hy2 & Hy3) Hn']; subst. exists k, names. split; [|exact Hn']. cbn [app]. apply nstep_up_name, Hy2.
  - exists k, (x :: names). split; [rewrite nstep_name by assumption; reflexivity|]. constructor; auto.
Qed.

Lemma norm_rev_canon acc l : rcanon acc -> Forall (fun x => ~ In 47 x) l -> rcanon (norm_rev acc l).
Proof.
  intros Ha Hl. revert acc Ha. induction Hl as [|x l Hx Hl IH]; intros acc Ha; [exact Ha|].
  apply (IH (nstep acc x)). apply nstep_canon; assumption.
Qed.

Lemma rev_repeat {A} (x : A) k : rev (repeat x k) = repeat x k.
Proof.
  induction k as [|k IH]; [reflexivity|]. cbn. rewrite IH. clear IH. induction k as [|k IH]; [reflexivity|]. cbn. rewrite IH. reflexivity.
Qed.

Lemma rcanon_rev acc : rcanon acc -> canonical (rev acc).
Proof.
  intros (k & names & -> & H). exists k, (rev names). split; [rewrite rev_app_distr, rev_repeat; reflexivity|]. apply Forall_rev, H.
Qed.

Lemma norm_canonical l : Forall (fun x => ~ In 47 x) l -> canonical (norm l).
Proof. intros H. apply rcanon_rev, norm_rev_canon; [|exact H]. exists O, []. split; [reflexivity|constructor]. Qed.

(** Canonical lists are fixed. *)
Lemma norm_rev_names names acc : Forall (fun x => x <> [] /\ x <> dotdot /\ ~ In 47 x) names -> norm_rev acc names = rev names ++ acc.
Proof.
  intros H. revert acc. induction H as [|x l (H1 & H2 & _) Hl IH]; intros acc; [reflexivity|].
  change (norm_rev acc (x :: l)) with (norm_rev (nstep acc x) l). rewrite nstep_name by assumption.
  rewrite IH. cbn. rewrite <- app_assoc. reflexivity.
Qed.
Lemma norm_rev_ups k j : norm_rev (repeat dotdot j) (repeat dotdot k) = repeat dotdot (k + j).
Proof.
  revert j. induction k as [|k IH]; intros j; [reflexivity|].
  change (norm_rev (repeat dotdot j) (repeat dotdot (S k))) with (norm_rev (nstep (repeat dotdot j) dotdot) (repeat dotdot k)).
  rewrite nstep_up; [|destruct j; [left|right; eexists]; reflexivity].
  change (dotdot :: repeat dotdot j) with (repeat dotdot (S j)). rewrite IH. f_equal. lia.
Qed.
Lemma norm_fixed l : canonical l -> norm l = l.
Proof.
  intros (k & names & -> & H). unfold norm. rewrite norm_rev_app.
  change (@nil (list Z)) with (repeat dotdot 0). rewrite norm_rev_ups, norm_rev_names by exact H.
  rewrite rev_app_distr, rev_involutive, rev_repeat, Nat.add_0_r. reflexivity.
Qed.

(** ** Equivalence *)
Lemma pl_ctx a b x y : same_place a b -> same_place (x ++ a ++ y) (x ++ b ++ y).
Proof.
  induction 1; [apply pl_refl|apply pl_sym; assumption|eapply pl_trans; eassumption| |].
  - rewrite <- !app_assoc. cbn. rewrite !(app_assoc x). apply pl_empty.
  - rewrite <- !app_assoc. cbn. rewrite !(app_assoc x). apply pl_up; assumption.
Qed.
Lemma pl_app_l a b y : same_place a b -> same_place (a ++ y) (b ++ y).
Proof. intros H. exact (pl_ctx a b [] y H). Qed.

Lemma nstep_nonempty acc x : Forall (fun y => y <> []) acc -> Forall (fun y => y <> []) (nstep acc x).
Proof.
  intros H. destruct (list_eq_dec Z.eq_dec x []) as [->|H1]; [exact H|].
  destruct (list_eq_dec Z.eq_dec x dotdot) as [->|H2]; [|rewrite nstep_name by assumption; constructor; assumption].
  destruct acc as [|y acc]; [rewrite nstep_up by auto; constructor; auto|].
  destruct (list_eq_dec Z.eq_dec y dotdot) as [->|H3].
  - rewrite nstep_up by (right; eexists; reflexivity). constructor; auto.
  - rewrite nstep_up_name by exact H3. inversion H; assumption.
Qed.

Lemma norm_rev_same acc l : Forall (fun y => y <> []) acc -> same_place (rev (norm_rev acc l)) (rev acc ++ l).
Proof.
  revert acc. induction l as [|x l IH]; intros acc Ha; [cbn; rewrite app_nil_r; apply pl_refl|].
  change (norm_rev acc (x :: l)) with (norm_rev (nstep acc x) l).
  eapply pl_trans; [apply IH, nstep_nonempty, Ha|].
  destruct (list_eq_dec Z.eq_dec x []) as [->|H1]; [rewrite nstep_empty; apply pl_sym, pl_empty|].
  destruct (list_eq_dec Z.eq_dec x dotdot) as [->|H2].
  - destruct acc as [|y acc]; [rewrite nstep_up by auto; apply pl_refl|].
    destruct (list_eq_dec Z.eq_dec y dotdot) as [->|H3].
    + rewrite nstep_up by (right; eexists; reflexivity). cbn. rewrite <- !app_assoc. apply pl_refl.
    + rewrite nstep_up_name by exact H3. cbn. rewrite <- app_assoc. cbn. inversion Ha; subst.
      apply pl_sym, pl_up; assumption.
  - rewrite nstep_name by assumption. cbn. rewrite <- app_assoc. apply pl_refl.
Qed.

Lemma norm_same l : same_place (norm l) l.
Proof. exact (norm_rev_same [] l (Forall_nil _)). Qed.

Lemma same_norm_rev a b : same_place a b -> norm_rev [] a = norm_rev [] b.
Proof.
  induction 1; [reflexivity|congruence|congruence| |].
  - rewrite !norm_rev_app. reflexivity.
  - rewrite !norm_rev_app. set (acc := norm_rev [] a).
    change (norm_rev acc (x :: dotdot :: b)) with (norm_rev (nstep (nstep acc x) dotdot) b).
    rewrite (nstep_name acc x), nstep_up_name by assumption. reflexivity.
Qed.

Lemma same_norm a b : same_place a b <-> norm a = norm b.
Proof.
  split.
  - intros H. unfold norm. rewrite (same_norm_rev a b H). reflexivity.
  - intros H. eapply pl_trans; [apply pl_sym, norm_same|]. rewrite H. apply norm_same.
Qed.

(** ** Paths as texts *)
Lemma normalize_norm p : normalize p = join_slash (norm (split_slash p)).
Proof. reflexivity. Qed.

Lemma canonical_no_slash l : canonical l -> Forall (fun x => ~ In 47 x) l.
Proof.
  intros (k & names & -> & H). apply Forall_app. split.
  - apply Forall_forall. intros x Hx. apply repeat_spec in Hx. subst. cbn. intuition discriminate.
  - eapply Forall_impl; [|exact H]. intros x Hx. apply Hx.
Qed.

(** The components of a normalized path. *)
Lemma split_normalize p :
  (norm (split_slash p) = [] /\ split_slash (normalize p) = [[]]) \/ split_slash (normalize p) = norm (split_slash p).
Proof.
  rewrite normalize_norm. destruct (norm (split_slash p)) as [|x l] eqn:E; [left; auto|right].
  rewrite <- E. apply split_join; [rewrite E; discriminate|]. apply canonical_no_slash, norm_canonical, split_no_slash.
Qed.

Lemma norm_split_normalize p : norm (split_slash (normalize p)) = norm (split_slash p).
Proof.
  destruct (split_normalize p) as [[H1 ->]| ->]; [rewrite H1; reflexivity|].
  apply norm_fixed, norm_canonical, split_no_slash.
Qed.

Lemma norm_split_inj p q : normalize p = normalize q -> norm (split_slash p) = norm (split_slash q).
Proof. intros H. rewrite <- (norm_split_normalize p), <- (norm_split_normalize q), H. reflexivity. Qed.

Lemma normalize_same p q : normalize p = normalize q <-> same_place (split_slash p) (split_slash q).
Proof.
  rewrite same_norm. split; [apply norm_split_inj|]. intros H. rewrite !normalize_norm, H. reflexivity.
Qed.

Lemma path_concat_steps a b : path_concat (normalize a) b = path_concat a b.
Proof.
  unfold path_concat. apply normalize_same. rewrite !split_app_slash. apply pl_app_l, same_norm. apply norm_split_normalize.
Qed.
Lemma path_concat_right a b : path_concat a (normalize b) = path_concat a b.
Proof.
  unfold path_concat. apply normalize_same. rewrite !split_app_slash.
  pose proof (pl_ctx (split_slash (normalize b)) (split_slash b) (split_slash a) []) as H. rewrite !app_nil_r in H.
  apply H, same_norm. apply norm_split_normalize.
Qed.

(** A normalized path never starts with a slash. *)
Lemma normalize_relative p r : normalize p <> 47 :: r.
Proof.
  intros H. rewrite normalize_norm in H.
  pose proof (norm_canonical (split_slash p) (split_no_slash p)) as Hc.
  destruct (norm (split_slash p)) as [|x l]; [discriminate|].
  destruct x as [|c x].
  - destruct Hc as (k & names & E & Hn). destruct k; cbn in E; [|discriminate].
    subst names. inversion Hn as [|? ? (Hx & _) _]; subst. congruence.
  - assert (c = 47) as -> by (destruct l; cbn in H; congruence).
    apply canonical_no_slash in Hc. inversion Hc; subst. cbn in *. tauto.
Qed.
