(** Lemmas about the tokenizer model: table lookups as character classes, runs of the state
    machine, the iterator. *)
From Coq Require Import ZArith List Bool Lia.
From Coq Require Import ZifyBool ZifyNat.
From Verif Require Import Outcome LimbsModel LimbsSpec BigIntModel JsBigintModel BigFloatModel
  RangeMapModel RangeMapSpec RangeMapProofs TokenizerModel TokenizerSpec.
Import ListNotations.
Open Scope Z_scope.

(** * Table lookup *)

Definition ascii_codes : list Z := map Z.of_nat (seq 0 128).

Lemma in_ascii c : 0 <= c < 128 -> In c ascii_codes.
Proof.
  intros H. unfold ascii_codes. apply in_map_iff. exists (Z.to_nat c). split; [lia|]. apply in_seq. lia.
Qed.

Fixpoint sortedb {T} (m : list (Z * T)) : bool :=
  match m with
  | [] => true
  | (k, _) :: m' => forallb (fun e => k <? fst e) m' && sortedb m'
  end.
Lemma sortedb_ok {T} (m : list (Z * T)) : sortedb m = true -> rm_sorted m.
Proof.
  induction m as [|[k v] m IH]; intros H; [constructor|]. cbn in H. apply andb_prop in H as [H1 H2].
  constructor; [apply IH, H2|]. rewrite Forall_forall. rewrite forallb_forall in H1.
  intros x Hx. specialize (H1 x Hx). cbn. lia.
Qed.

Definition table_check {T} (map : outcome (list (Z * option T))) (cls : Z -> option T) : Prop :=
  match map with
  | Ok m => sortedb m = true /\ (length m <= 1000)%nat /\ forallb (fun e => fst e <? 128) m = true /\
            List.map (look m) ascii_codes = List.map cls ascii_codes
  | _ => False
  end.

Lemma map_eq_in {A C} (f g : A -> C) l x : List.map f l = List.map g l -> In x l -> f x = g x.
Proof.
  induction l as [|a l IH]; intros H Hin; [destruct Hin|]. cbn in H. inversion H.
  destruct Hin as [->|Hin]; auto.
Qed.

Lemma look_beyond {T} (m : list (Z * option T)) c : forallb (fun e => fst e <? 128) m = true ->
  128 <= c -> look m c = None.
Proof.
  intros H Hc. induction m as [|[k v] m IH]; [reflexivity|]. cbn in H. apply andb_prop in H as [H1 H2].
  cbn [look fst] in *. destruct (Z.leb_spec c k); [cbn in H1; lia|]. apply IH, H2.
Qed.

Lemma table_get {T} (map : outcome (list (Z * option T))) (cls : Z -> option T) :
  table_check map cls -> (forall c, 128 <= c -> cls c = None) ->
  forall c, 0 <= c -> get_transition map c = Ok (cls c).
Proof.
  unfold table_check, get_transition. intros H Hn c Hc. destruct map as [m| |]; try tauto.
  destruct H as [Hs [Hl [Hk Hm]]]. cbn [obind].
  rewrite rm_get_spec; [|apply sortedb_ok, Hs|lia]. f_equal.
  destruct (Z.lt_ge_cases c 128).
  - apply (map_eq_in _ _ ascii_codes); [exact Hm|apply in_ascii; lia].
  - rewrite Hn by lia. apply look_beyond; auto.
Qed.

(** The character classes of the tables. *)
Definition is_nonzero_digit (c : Z) : bool := (49 <=? c) && (c <=? 57).
Definition cls_initial (c : Z) : option t_initial :=
  if is_punct c || (c =? 46) then Some IOperator else
  if is_nonzero_digit c then Some IDigit else
  if c =? 34 then Some IQuote else if c =? 48 then Some IZero else if c =? 45 then Some IMinus else
  if ident_start c then Some IId else if c =? 10 then Some INewLine else
  if is_blank c then Some ISpace else if c =? 47 then Some ISlash else None.
Definition cls_if (b : Z -> bool) (c : Z) : option unit := if b c then Some tt else None.
Definition cls_string (c : Z) : option t_string :=
  if c =? 34 then Some SQuote else if c =? 92 then Some SBackslash else None.
Definition cls_escape (c : Z) : option t_escape :=
  if (c =? 34) || (c =? 92) || (c =? 47) then Some ESelf else
  if c =? 98 then Some EB else if c =? 102 then Some EF else if c =? 110 then Some EN else
  if c =? 114 then Some ER else if c =? 116 then Some ET else if c =? 117 then Some EU else None.
Definition cls_unicode (c : Z) : option t_unicode :=
  if is_digit c then Some UDigit else if (97 <=? c) && (c <=? 102) then Some ULower else
  if (65 <=? c) && (c <=? 70) then Some UUpper else None.
Definition is_e (c : Z) : bool := (c =? 101) || (c =? 69).
Definition cls_zero (c : Z) : option t_zero :=
  if c =? 46 then Some ZDot else if is_e c then Some ZExp else if c =? 110 then Some ZBig else
  if is_terminal c then Some ZTerminal else None.
Definition cls_int (c : Z) : option t_int :=
  if is_digit c then Some NDigit else
  if c =? 46 then Some NDot else if is_e c then Some NExp else if c =? 110 then Some NBig else
  if is_terminal c then Some NTerminal else None.
Definition cls_frac (c : Z) : option t_frac :=
  if is_digit c then Some FDigit else if is_e c then Some FExp else
  if is_terminal c then Some FTerminal else None.
Definition cls_minus (c : Z) : option t_minus :=
  if c =? 48 then Some MZero else if is_nonzero_digit c then Some MDigit else None.
Definition cls_exp_begin (c : Z) : option t_exp_begin :=
  if is_digit c then Some BDigit else if c =? 43 then Some BPlus else if c =? 45 then Some BMinus else
  if is_terminal c then Some BTerminal else None.
Definition cls_exp (c : Z) : option t_exp :=
  if is_digit c then Some XDigit else if is_terminal c then Some XTerminal else None.
Definition cls_comment (c : Z) : option t_comment :=
  if c =? 47 then Some CSlash else if c =? 42 then Some CStar else None.
Definition is_op (c : Z) : bool := is_punct c || (c =? 46).

Ltac classes := unfold cls_initial, cls_if, cls_string, cls_escape, cls_unicode, cls_zero, cls_int, cls_frac,
  cls_minus, cls_exp_begin, cls_exp, cls_comment, is_op, is_e, is_terminal, is_space, is_blank, is_punct,
  is_nonzero_digit, ident_part, ident_start, is_letter, is_digit in *.

(** Boolean character conditions decided by linear arithmetic. *)
Ltac table := apply table_get;
  [ split; [vm_compute; reflexivity|split; [vm_compute; lia|split; vm_compute; reflexivity]]
  | let c := fresh in let H := fresh in intros c H; classes;
    repeat match goal with |- (if ?b then _ else _) = None => replace b with false by lia end; reflexivity ].

Lemma get_initial : forall c, 0 <= c -> get_transition initial_map c = Ok (cls_initial c).
Proof. table. Qed.
Lemma get_id : forall c, 0 <= c -> get_transition id_map c = Ok (cls_if ident_part c).
Proof. table. Qed.
Lemma get_string : forall c, 0 <= c -> get_transition string_map c = Ok (cls_string c).
Proof. table. Qed.
Lemma get_escape : forall c, 0 <= c -> get_transition escape_map c = Ok (cls_escape c).
Proof. table. Qed.
Lemma get_unicode : forall c, 0 <= c -> get_transition unicode_map c = Ok (cls_unicode c).
Proof. table. Qed.
Lemma get_zero : forall c, 0 <= c -> get_transition zero_map c = Ok (cls_zero c).
Proof. table. Qed.
Lemma get_int : forall c, 0 <= c -> get_transition int_map c = Ok (cls_int c).
Proof. table. Qed.
Lemma get_frac_begin : forall c, 0 <= c -> get_transition frac_begin_map c = Ok (cls_if is_digit c).
Proof. table. Qed.
Lemma get_frac : forall c, 0 <= c -> get_transition frac_map c = Ok (cls_frac c).
Proof. table. Qed.
Lemma get_minus : forall c, 0 <= c -> get_transition minus_map c = Ok (cls_minus c).
Proof. table. Qed.
Lemma get_exp_begin : forall c, 0 <= c -> get_transition exp_begin_map c = Ok (cls_exp_begin c).
Proof. table. Qed.
Lemma get_exp : forall c, 0 <= c -> get_transition exp_map c = Ok (cls_exp c).
Proof. table. Qed.
Lemma get_big_int : forall c, 0 <= c -> get_transition big_int_map c = Ok (cls_if is_terminal c).
Proof. table. Qed.
Lemma get_new_line : forall c, 0 <= c -> get_transition new_line_map c = Ok (cls_if is_space c).
Proof. table. Qed.
Lemma get_comment_start : forall c, 0 <= c -> get_transition comment_start_map c = Ok (cls_comment c).
Proof. table. Qed.
Lemma get_singleline : forall c, 0 <= c ->
  get_transition singleline_map c = Ok (cls_if (fun c => (c =? 10) || (c =? 13)) c).
Proof. table. Qed.
Lemma get_multiline : forall c, 0 <= c -> get_transition multiline_map c = Ok (cls_if (fun c => c =? 42) c).
Proof. table. Qed.
Lemma get_asterix : forall c, 0 <= c -> get_transition asterix_map c = Ok (cls_comment c).
Proof. table. Qed.
Lemma get_operator : forall c, 0 <= c -> get_transition operator_map c = Ok (cls_if is_op c).
Proof. table. Qed.

(** * One step *)

Definition prepend (toks : list token) (o : outcome (list token * tstate)) : outcome (list token * tstate) :=
  let! (next, st) := o in Ok (toks ++ next, st).

Lemma prepend_nil o : prepend [] o = o.
Proof. destruct o as [[a b]| |]; reflexivity. Qed.
Lemma prepend_app a b o : prepend a (prepend b o) = prepend (a ++ b) o.
Proof. destruct o as [[x y]| |]; cbn; try rewrite app_assoc; reflexivity. Qed.

Lemma push_initial fuel c : 0 <= c -> push fuel Initial c = Ok
  match cls_initial c with
  | None => ([TError UnexpectedCharacter], Initial)
  | Some IOperator => ([], ParseOperator [c])
  | Some IDigit => ([], ParseInt (from_digit c) Positive)
  | Some IQuote => ([], ParseString [])
  | Some IZero => ([], ParseZero Positive)
  | Some IMinus => ([], ParseMinus)
  | Some IId => ([], ParseId [c])
  | Some INewLine => ([], ParseNewLine)
  | Some ISpace => ([], Initial)
  | Some ISlash => ([], ParseCommentStart)
  end.
Proof. intros H. unfold push, push_with. rewrite get_initial by exact H. reflexivity. Qed.

Lemma push_string fuel s c : 0 <= c -> push fuel (ParseString s) c = Ok
  (if c =? 34 then ([TString s], Initial) else if c =? 92 then ([], ParseEscapeChar s)
   else ([], ParseString (s ++ [c]))).
Proof.
  intros H. unfold push, push_with. rewrite get_string by exact H. cbn [obind]. unfold cls_string.
  destruct (c =? 34); [reflexivity|]. destruct (c =? 92); reflexivity.
Qed.

(** The inner [push] agrees with [push] on the two states it is called with. *)
Lemma inner_initial fuel c : 0 <= c -> push_with (fun _ _ => NoFuel) fuel Initial c = push fuel Initial c.
Proof. intros H. unfold push, push_with. rewrite get_initial by exact H. reflexivity. Qed.
Lemma inner_string fuel s c : 0 <= c ->
  push_with (fun _ _ => NoFuel) fuel (ParseString s) c = push fuel (ParseString s) c.
Proof. intros H. unfold push, push_with. rewrite get_string by exact H. destruct (cls_string c) as [[]|]; reflexivity. Qed.

(** One [push] with the table lookups and the recursion resolved. *)
Definition step (fuel : nat) (st : tstate) (c : Z) : outcome (list token * tstate) :=
  let back toks := prepend toks (push fuel Initial c) in
  let bad := back [TError InvalidNumber] in
  match st with
  | Initial | ParseString _ => push fuel st c
  | ParseId s => if ident_part c then Ok ([], ParseId (s ++ [c])) else back [TId s]
  | ParseEscapeChar s =>
      match cls_escape c with
      | Some ESelf => continue_string_state s c
      | Some EB => continue_string_state s 0x08
      | Some EF => continue_string_state s 0x0C
      | Some EN => continue_string_state s 0x0A
      | Some ER => continue_string_state s 0x0D
      | Some ET => continue_string_state s 0x09
      | Some EU => Ok ([], ParseUnicodeChar s 0 0)
      | None => prepend [TError UnexpectedCharacter] (push fuel (ParseString s) c)
      end
  | ParseUnicodeChar s unicode index =>
      match hex_value c with
      | Some v => unicode_push s unicode index v
      | None => prepend [TError InvalidHex] (push fuel (ParseString s) c)
      end
  | ParseMinus =>
      if c =? 48 then Ok ([], ParseZero Negative)
      else if is_nonzero_digit c then Ok ([], ParseInt (from_digit c) Negative) else bad
  | ParseZero s =>
      match cls_zero c with
      | Some ZDot => Ok ([], ParseFracBegin jb_zero s)
      | Some ZExp => Ok ([], ParseExpBegin jb_zero s 0 Positive 0)
      | Some ZBig => Ok ([], ParseBigInt jb_zero)
      | Some ZTerminal => back [TNumber 0]
      | None => bad
      end
  | ParseInt b s =>
      match cls_int c with
      | Some NDigit => let! b' := add_digit b c in Ok ([], ParseInt b' s)
      | Some NDot => Ok ([], ParseFracBegin b s)
      | Some NExp => Ok ([], ParseExpBegin b s 0 Positive 0)
      | Some NBig => Ok ([], ParseBigInt (into_bigint_state b s))
      | Some NTerminal => let! n := number_token fuel b s 0 in back [n]
      | None => bad
      end
  | ParseFracBegin b s =>
      if is_digit c then let! st' := frac_add_digit b s 0 c in Ok ([], st') else bad
  | ParseFrac b s fe =>
      match cls_frac c with
      | Some FDigit => let! st' := frac_add_digit b s fe c in Ok ([], st')
      | Some FExp => Ok ([], ParseExpBegin b s fe Positive 0)
      | Some FTerminal => let! n := number_token fuel b s fe in back [n]
      | None => bad
      end
  | ParseExpBegin b s fe es e =>
      match cls_exp_begin c with
      | Some BDigit => let! st' := exp_add_digit b s fe es e c in Ok ([], st')
      | Some BPlus => Ok ([], ParseExpSign b s fe es e)
      | Some BMinus => Ok ([], ParseExpSign b s fe Negative e)
      | Some BTerminal => let! n := exp_state_into_token fuel b s fe es e in back [n]
      | None => bad
      end
  | ParseExpSign b s fe es e | ParseExp b s fe es e =>
      match cls_exp c with
      | Some XDigit => let! st' := exp_add_digit b s fe es e c in Ok ([], st')
      | Some XTerminal => let! n := exp_state_into_token fuel b s fe es e in back [n]
      | None => bad
      end
  | ParseBigInt b => if is_terminal c then back [TBigInt b] else bad
  | ParseNewLine => if is_space c then Ok ([], ParseNewLine) else back [TNewLine]
  | ParseCommentStart =>
      Ok (if c =? 47 then ([], ParseSinglelineComment) else if c =? 42 then ([], ParseMultilineComment)
          else ([TError UnexpectedCharacter], Initial))
  | ParseSinglelineComment =>
      Ok (if (c =? 10) || (c =? 13) then ([], ParseNewLine) else ([], ParseSinglelineComment))
  | ParseMultilineComment =>
      Ok (if c =? 42 then ([], ParseMultilineCommentAsterix) else ([], ParseMultilineComment))
  | ParseMultilineCommentAsterix =>
      Ok (if c =? 47 then ([], Initial) else if c =? 42 then ([], ParseMultilineCommentAsterix)
          else ([], ParseMultilineComment))
  | ParseOperator s =>
      match operator_to_token (s ++ [c]) with
      | Some _ => if is_op c then Ok ([], ParseOperator (s ++ [c]))
                  else let! tok := unwrap (operator_to_token s) in back [tok]
      | None => let! tok := unwrap (operator_to_token s) in back [tok]
      end
  end.

Lemma push_step fuel st c : 0 <= c -> push fuel st c = step fuel st c.
Proof.
  intros H. destruct st; cbn [step]; try reflexivity;
  unfold push at 1; cbn [push_with];
  rewrite ?get_id, ?get_escape, ?get_unicode, ?get_minus, ?get_zero, ?get_int, ?get_frac_begin,
    ?get_frac, ?get_exp_begin, ?get_exp, ?get_big_int, ?get_new_line, ?get_comment_start,
    ?get_singleline, ?get_multiline, ?get_asterix, ?get_operator by exact H; cbn [obind];
  rewrite ?inner_initial, ?inner_string by exact H; fold (prepend [TError InvalidNumber] (push fuel Initial c)).
  all: unfold prepend.
  - unfold cls_if. destruct (ident_part c); reflexivity.
  - destruct (cls_escape c) as [[]|]; reflexivity.
  - unfold cls_unicode, hex_value. destruct (is_digit c); [reflexivity|].
    destruct ((97 <=? c) && (c <=? 102)); [reflexivity|].
    destruct ((65 <=? c) && (c <=? 70)); reflexivity.
  - unfold cls_minus. destruct (c =? 48); [reflexivity|]. destruct (is_nonzero_digit c); reflexivity.
  - destruct (cls_zero c) as [[]|]; reflexivity.
  - destruct (cls_int c) as [[]|]; reflexivity.
  - unfold cls_if. destruct (is_digit c); reflexivity.
  - destruct (cls_frac c) as [[]|]; reflexivity.
  - destruct (cls_exp_begin c) as [[]|]; reflexivity.
  - destruct (cls_exp c) as [[]|]; reflexivity.
  - destruct (cls_exp c) as [[]|]; reflexivity.
  - unfold cls_if. destruct (is_terminal c); reflexivity.
  - unfold cls_if. destruct (is_space c); reflexivity.
  - unfold cls_comment. destruct (c =? 47); [reflexivity|]. destruct (c =? 42); reflexivity.
  - unfold cls_if. destruct ((c =? 10) || (c =? 13)); reflexivity.
  - unfold cls_if. destruct (c =? 42); reflexivity.
  - unfold cls_comment. destruct (c =? 47); [reflexivity|]. destruct (c =? 42); reflexivity.
  - unfold cls_if. destruct (is_op c); [reflexivity|]. destruct (operator_to_token (s ++ [c])); reflexivity.
Qed.
