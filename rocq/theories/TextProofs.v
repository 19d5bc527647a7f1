(** The encoding and the order used by the model are those of the specification. *)
From Coq Require Import ZArith List Bool Lia Sorted.
From Verif Require Import ValueModel BTreeProofs TextSpec.
Import ListNotations.
Open Scope Z_scope.

Lemma utf16_char_units c : utf16_char c = code_units c.
Proof.
  unfold utf16_char, code_units. destruct (Z.ltb_spec c 0x10000), (Z.leb_spec c 0xFFFF); try lia; [reflexivity|].
  rewrite Z.shiftr_div_pow2 by lia. change 0x3FF with (Z.ones 10). rewrite Z.land_ones by lia. reflexivity.
Qed.
Lemma utf16_units s : utf16 s = units s.
Proof. unfold utf16, units. induction s as [|c s IH]; cbn; [reflexivity|]. rewrite utf16_char_units, IH. reflexivity. Qed.
Lemma utf16_units_keys {V} (m : list (list Z * V)) :
  map (fun kv => (utf16 (fst kv), snd kv)) m = map (fun kv => (units (fst kv), snd kv)) m.
Proof. apply map_ext. intros kv. rewrite utf16_units. reflexivity. Qed.

Lemma text_before_cmp a b : text_before a b <-> str_cmp a b = Lt.
Proof.
  split.
  - induction 1 as [|x y s t H|x s t H IH]; cbn; [reflexivity| |].
    + apply Z.compare_lt_iff in H. rewrite H. reflexivity.
    + rewrite Z.compare_refl. exact IH.
  - revert b. induction a as [|x a IH]; intros [|y b]; cbn; try discriminate; [constructor|].
    destruct (Z.compare_spec x y) as [->|H|H]; try discriminate; [intros E; apply tb_later, IH, E|intros _; apply tb_here, H].
Qed.
Lemma sorted_text {V} (m : list (list Z * V)) :
  StronglySorted (fun a b => text_before (fst a) (fst b)) m <-> StronglySorted (fun a b => str_cmp (fst a) (fst b) = Lt) m.
Proof.
  split; induction 1 as [|a m H IH Hall]; constructor; auto;
    (eapply Forall_impl; [|exact Hall]); intros b Hb; apply text_before_cmp; exact Hb.
Qed.

Lemma units_cons c s : units (c :: s) = code_units c ++ units s.
Proof. reflexivity. Qed.
Lemma units_read s : Forall scalar_value s -> reads_as (units s) s.
Proof.
  induction 1 as [|c s Hc H IH]; [constructor|]. rewrite units_cons. unfold code_units.
  unfold scalar_value in Hc. destruct (Z.leb_spec c 0xFFFF).
  - apply ra_one; [exact Hc|lia|exact IH].
  - cbn [app].
    replace c with (0x10000 + (0xD800 + (c - 0x10000) / 0x400 - 0xD800) * 0x400 + (0xDC00 + (c - 0x10000) mod 0x400 - 0xDC00)) at 3
      by (pose proof (Z.div_mod (c - 0x10000) 0x400); lia).
    pose proof (Z.mod_pos_bound (c - 0x10000) 0x400).
    assert (0 <= (c - 0x10000) / 0x400 < 0x400) by (split; [apply Z.div_pos; lia|apply Z.div_lt_upper_bound; lia]).
    apply ra_pair; [lia|lia|exact IH].
Qed.

Lemma reads_as_text u s t : reads_as u s -> reads_as u t -> s = t.
Proof.
  intros H. revert t. induction H as [|c u s Hc Hm H IH|h l u s Hh Hl H IH]; intros t Ht; inversion Ht; subst; auto;
    unfold scalar_value in *; try lia; f_equal; auto.
Qed.
Lemma reads_as_units u s : reads_as u s -> units s = u /\ Forall scalar_value s.
Proof.
  induction 1 as [|c u s Hc Hm H IH|h l u s Hh Hl H IH]; [split; [reflexivity|constructor]| |]; destruct IH as [IH1 IH2].
  - split; [|constructor; assumption]. rewrite units_cons. unfold code_units. destruct (Z.leb_spec c 0xFFFF); [|lia].
    rewrite IH1. reflexivity.
  - split.
    + rewrite units_cons. unfold code_units. match goal with |- context [?x <=? _] => set (c := x) end.
      destruct (Z.leb_spec c 0xFFFF); [unfold c in *; lia|]. cbn [app]. rewrite IH1.
      replace (c - 0x10000) with ((h - 0xD800) * 0x400 + (l - 0xDC00)) by (unfold c; lia).
      rewrite Z.div_add_l, (Z.div_small (l - 0xDC00)) by lia.
      rewrite Z.add_comm with (n := (h - 0xD800) * 0x400), Z.mod_add, Z.mod_small by lia. f_equal; [lia|f_equal; lia].
    + constructor; [|exact IH2]. unfold scalar_value. lia.
Qed.
