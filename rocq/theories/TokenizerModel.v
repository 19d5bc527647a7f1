(** Model of nanvm-lib/src/tokenizer/mod.rs.  A [char] is its code point (Z), a [String]
    the list of its characters, an f64 its bit pattern.  Transition functions (function
    pointers in the source) are constructors of one enumeration per transition map; the
    maps themselves are built by the range map model.  [fuel] is only spent by the number
    conversion (BigFloatModel). *)
From Coq Require Import ZArith List Bool.
From Verif Require Import Outcome LimbsModel BigIntModel JsBigintModel BigFloatModel RangeMapModel.
Import ListNotations.
Open Scope Z_scope.

(** mod.rs:49-57 *)
Inductive error_type :=
| UnexpectedCharacter | InvalidToken | InvalidNumber | InvalidHex | MissingQuotes
| CommentClosingExpected.

(** mod.rs:15-34 *)
Inductive token :=
| TString (s : list Z) | TNumber (bits : Z) | TObjectBegin | TObjectEnd | TArrayBegin
| TArrayEnd | TColon | TComma | TEquals | TDot | TError (e : error_type)
| TBigInt (b : jsbigint) | TId (s : list Z) | TNewLine | TSemicolon | TOpenPar | TClosePar.

(** mod.rs:59-82, with the fields of ParseUnicodeCharState (177-181), IntState (215-218),
    FloatState (274-278) and ExpState (311-317) as arguments. *)
Inductive tstate :=
| Initial
| ParseId (s : list Z)
| ParseString (s : list Z)
| ParseEscapeChar (s : list Z)
| ParseUnicodeChar (s : list Z) (unicode index : Z)
| ParseMinus
| ParseZero (s : sign)
| ParseInt (b : jsbigint) (s : sign)
| ParseFracBegin (b : jsbigint) (s : sign)
| ParseFrac (b : jsbigint) (s : sign) (fe : Z)
| ParseExpBegin (b : jsbigint) (s : sign) (fe : Z) (es : sign) (e : Z)
| ParseExpSign (b : jsbigint) (s : sign) (fe : Z) (es : sign) (e : Z)
| ParseExp (b : jsbigint) (s : sign) (fe : Z) (es : sign) (e : Z)
| ParseBigInt (b : jsbigint)
| ParseNewLine
| ParseCommentStart
| ParseSinglelineComment
| ParseMultilineComment
| ParseMultilineCommentAsterix
| ParseOperator (s : list Z).

(** [i64] arithmetic of a debug build: overflow panics. *)
Definition i64 (n : Z) : outcome Z :=
  if (- 2 ^ 63 <=? n) && (n <? 2 ^ 63) then Ok n else Panic.

(** mod.rs:210-213 *)
Definition bigfloat_to_f64 (fuel : nat) (f : bigfloat) : outcome Z :=
  let! g := to_bin fuel f 54 in to_f64 fuel g.

(** The body of mod.rs:261-272, 298-309 and 335-341 *)
Definition number_token (fuel : nat) (b : jsbigint) (s : sign) (exp : Z) : outcome token :=
  let! bits := bigfloat_to_f64 fuel {| bf_sig := b; bf_sign := s; bf_exp := exp; bf_rem := false |} in
  Ok (TNumber bits).

(** mod.rs:326-342 *)
Definition exp_state_into_token (fuel : nat) (b : jsbigint) (s : sign) (fe : Z) (es : sign) (e : Z)
  : outcome token :=
  let! exp := i64 (fe + match es with Positive => e | Negative => - e end) in
  number_token fuel b s exp.

(** mod.rs:388-390 *)
Definition digit_to_number (c : Z) : Z := c - 0x30.

(** mod.rs:221-223 *)
Definition from_digit (c : Z) : jsbigint := jb_from_u64 Positive (digit_to_number c).

(** mod.rs:225-231 *)
Definition add_digit (b : jsbigint) (c : Z) : outcome jsbigint :=
  let! m := jb_mul b (jb_from_u64 Positive 10) in Ok (jb_add m (from_digit c)).

(** mod.rs:281-285 *)
Definition frac_add_digit (b : jsbigint) (s : sign) (fe c : Z) : outcome tstate :=
  let! b' := add_digit b c in
  let! fe' := i64 (fe - 1) in
  Ok (ParseFrac b' s fe').

(** mod.rs:320-323 *)
Definition exp_add_digit (b : jsbigint) (s : sign) (fe : Z) (es : sign) (e c : Z) : outcome tstate :=
  let! e1 := i64 (e * 10) in
  let! e2 := i64 (e1 + digit_to_number c) in
  Ok (ParseExp b s fe es e2).

(** mod.rs:253-258 *)
Definition into_bigint_state (b : jsbigint) (s : sign) : jsbigint :=
  match s with Positive => b | Negative => jb_negative b end.

(** Characters *)
Definition ch_tab := 0x09.      Definition ch_lf := 0x0A.       Definition ch_cr := 0x0D.
Definition ch_space := 0x20.    Definition ch_quote := 0x22.    Definition ch_dollar := 0x24.
Definition ch_lpar := 0x28.     Definition ch_rpar := 0x29.     Definition ch_star := 0x2A.
Definition ch_plus := 0x2B.     Definition ch_comma := 0x2C.    Definition ch_minus := 0x2D.
Definition ch_dot := 0x2E.      Definition ch_slash := 0x2F.    Definition ch_colon := 0x3A.
Definition ch_semi := 0x3B.     Definition ch_eq := 0x3D.       Definition ch_lbracket := 0x5B.
Definition ch_backslash := 0x5C. Definition ch_rbracket := 0x5D. Definition ch_under := 0x5F.
Definition ch_lbrace := 0x7B.   Definition ch_rbrace := 0x7D.

(** mod.rs:346-361 *)
Definition operator_to_token (s : list Z) : option token :=
  match s with
  | [c] =>
      if c =? ch_lbrace then Some TObjectBegin else
      if c =? ch_rbrace then Some TObjectEnd else
      if c =? ch_lbracket then Some TArrayBegin else
      if c =? ch_rbracket then Some TArrayEnd else
      if c =? ch_colon then Some TColon else
      if c =? ch_comma then Some TComma else
      if c =? ch_eq then Some TEquals else
      if c =? ch_dot then Some TDot else
      if c =? ch_semi then Some TSemicolon else
      if c =? ch_lpar then Some TOpenPar else
      if c =? ch_rpar then Some TClosePar else None
  | _ => None
  end.

(** [Option::unwrap] *)
Definition unwrap {A} (o : option A) : outcome A := match o with Some a => Ok a | None => Panic end.

(** mod.rs:363-365 *)
Definition white_space_chars : list Z := [ch_space; ch_lf; ch_tab; ch_cr].
Definition new_line_chars : list Z := [ch_lf; ch_cr].
Definition operator_chars : list Z :=
  [ch_lbrace; ch_rbrace; ch_lbracket; ch_rbracket; ch_colon; ch_comma; ch_eq; ch_semi; ch_lpar; ch_rpar].

(** mod.rs:410-420 *)
Definition set_of (l : list Z) : list (Z * Z) := map (fun c => (c, c)) l.

(** mod.rs:367-373 *)
Definition id_start : list (Z * Z) := [(0x61, 0x7A); (0x41, 0x5A); (ch_under, ch_under); (ch_dollar, ch_dollar)].
Definition id_char : list (Z * Z) := id_start ++ [(0x30, 0x39)].

(** mod.rs:375-386 *)
Definition operator_chars_with_dot : list (Z * Z) := set_of (operator_chars ++ [ch_dot]).
Definition terminal_for_number : list (Z * Z) :=
  set_of (white_space_chars ++ operator_chars ++ [ch_quote; ch_slash]).

(** Equality of function pointers: the source compares them only when two maps give a
    transition to the same character.  [false] is the case in which such a merge panics, so
    that the maps below being built shows that no comparison happens. *)
Definition fn_eq {T : Type} (x y : T) : bool := false.

(** mod.rs:399-408 *)
Fixpoint create_loop {T : Type} (l : list (Z * Z)) (t : T) (result : list (Z * option T))
  : outcome (list (Z * option T)) :=
  match l with
  | [] => Ok result
  | (a, b) :: l' =>
      let! r := from_range a b t in
      let! result' := merge fn_eq r result in
      create_loop l' t result'
  end.
Definition create_range_map {T : Type} (l : list (Z * Z)) (t : T) := create_loop l t [].

(** Sequence the construction of the arguments of [merge_list] (or [merge]). *)
Fixpoint all_ok {A : Type} (l : list (outcome A)) : outcome (list A) :=
  match l with
  | [] => Ok []
  | x :: l' => let! a := x in let! r := all_ok l' in Ok (a :: r)
  end.
Definition merged {T : Type} (l : list (outcome (list (Z * option T)))) : outcome (list (Z * option T)) :=
  let! l' := all_ok l in merge_list fn_eq l'.
Definition merged2 {T : Type} (a b : outcome (list (Z * option T))) : outcome (list (Z * option T)) :=
  let! x := a in let! y := b in merge fn_eq x y.

(** Transition maps, mod.rs:489-1032.  One constructor per transition function; [def] is
    handled in [push_with]. *)

(** mod.rs:489-530 *)
Inductive t_initial := IOperator | IDigit | IQuote | IZero | IMinus | IId | INewLine | ISpace | ISlash.
Definition initial_map : outcome (list (Z * option t_initial)) := merged
  [ create_range_map operator_chars_with_dot IOperator;
    from_range 0x31 0x39 IDigit;
    from_one ch_quote IQuote;
    from_one 0x30 IZero;
    from_one ch_minus IMinus;
    create_range_map id_start IId;
    from_one ch_lf INewLine;
    create_range_map (set_of [ch_space; ch_tab; ch_cr]) ISpace;
    from_one ch_slash ISlash ].

(** mod.rs:532-548 *)
Definition id_map : outcome (list (Z * option unit)) := create_range_map id_char tt.

(** mod.rs:550-565 *)
Inductive t_string := SQuote | SBackslash.
Definition string_map : outcome (list (Z * option t_string)) :=
  merged2 (from_one ch_quote SQuote) (from_one ch_backslash SBackslash).

(** mod.rs:588-623 *)
Inductive t_escape := ESelf | EB | EF | EN | ER | ET | EU.
Definition escape_map : outcome (list (Z * option t_escape)) := merged
  [ create_range_map (set_of [ch_quote; ch_backslash; ch_slash]) ESelf;
    from_one 0x62 EB; from_one 0x66 EF; from_one 0x6E EN; from_one 0x72 ER; from_one 0x74 ET;
    from_one 0x75 EU ].

(** mod.rs:625-656 *)
Inductive t_unicode := UDigit | ULower | UUpper.
Definition unicode_map : outcome (list (Z * option t_unicode)) := merged
  [ from_range 0x30 0x39 UDigit; from_range 0x61 0x66 ULower; from_range 0x41 0x46 UUpper ].

Definition exp_chars : list (Z * Z) := set_of [0x65; 0x45].

(** mod.rs:658-710 *)
Inductive t_zero := ZDot | ZExp | ZBig | ZTerminal.
Definition zero_map : outcome (list (Z * option t_zero)) := merged
  [ from_one ch_dot ZDot; create_range_map exp_chars ZExp; from_one 0x6E ZBig;
    create_range_map terminal_for_number ZTerminal ].

(** mod.rs:712-755 *)
Inductive t_int := NDigit | NDot | NExp | NBig | NTerminal.
Definition int_map : outcome (list (Z * option t_int)) := merged
  [ from_range 0x30 0x39 NDigit; from_one ch_dot NDot; create_range_map exp_chars NExp;
    from_one 0x6E NBig; create_range_map terminal_for_number NTerminal ].

(** mod.rs:757-772 *)
Definition frac_begin_map : outcome (list (Z * option unit)) := from_range 0x30 0x39 tt.

(** mod.rs:774-805 *)
Inductive t_frac := FDigit | FExp | FTerminal.
Definition frac_map : outcome (list (Z * option t_frac)) := merged
  [ from_range 0x30 0x39 FDigit; create_range_map exp_chars FExp;
    create_range_map terminal_for_number FTerminal ].

(** mod.rs:807-824 *)
Inductive t_minus := MZero | MDigit.
Definition minus_map : outcome (list (Z * option t_minus)) :=
  merged2 (from_one 0x30 MZero) (from_range 0x31 0x39 MDigit).

(** mod.rs:826-858 *)
Inductive t_exp_begin := BDigit | BPlus | BMinus | BTerminal.
Definition exp_begin_map : outcome (list (Z * option t_exp_begin)) := merged
  [ from_range 0x30 0x39 BDigit; from_one ch_plus BPlus; from_one ch_minus BMinus;
    create_range_map terminal_for_number BTerminal ].

(** mod.rs:860-880 *)
Inductive t_exp := XDigit | XTerminal.
Definition exp_map : outcome (list (Z * option t_exp)) :=
  merged2 (from_range 0x30 0x39 XDigit) (create_range_map terminal_for_number XTerminal).

(** mod.rs:882-897 *)
Definition big_int_map : outcome (list (Z * option unit)) := create_range_map terminal_for_number tt.

(** mod.rs:913-929 *)
Definition new_line_map : outcome (list (Z * option unit)) := create_range_map (set_of white_space_chars) tt.

(** mod.rs:931-949 *)
Inductive t_comment := CSlash | CStar.
Definition comment_start_map : outcome (list (Z * option t_comment)) :=
  merged2 (from_one ch_slash CSlash) (from_one ch_star CStar).

(** mod.rs:961-969 *)
Definition singleline_map : outcome (list (Z * option unit)) := create_range_map (set_of new_line_chars) tt.

(** mod.rs:971-987 *)
Definition multiline_map : outcome (list (Z * option unit)) := from_one ch_star tt.

(** mod.rs:989-1008 *)
Definition asterix_map : outcome (list (Z * option t_comment)) :=
  merged2 (from_one ch_slash CSlash) (from_one ch_star CStar).

(** mod.rs:1010-1032 *)
Definition operator_map : outcome (list (Z * option unit)) := create_range_map operator_chars_with_dot tt.

(** mod.rs:482, the lookup of [get_next_state].  The source builds the maps once
    (create_transition_maps, 451-473); they are constants here. *)
Definition get_transition {T : Type} (map : outcome (list (Z * option T))) (c : Z) : outcome (option T) :=
  let! m := map in rm_get m c.

(** mod.rs:567-573 *)
Definition continue_string_state (s : list Z) (c : Z) : outcome (list token * tstate) :=
  Ok ([], ParseString (s ++ [c])).

(** mod.rs:183-208 *)
Definition unicode_push (s : list Z) (unicode index i : Z) : outcome (list token * tstate) :=
  let new_unicode := Z.lor unicode (Z.shiftl i ((3 - index) * 4)) in
  if index =? 3 then
    match from_u32 new_unicode with
    | Some c => continue_string_state s c
    | None => Ok ([TError InvalidHex], Initial)
    end
  else if (0 <=? index) && (index <=? 2) then Ok ([], ParseUnicodeChar s new_unicode (index + 1))
  else Panic.

(** mod.rs:84-130 with the transition functions of 489-1032 (get_next_state 475-487).
    [rec] is the recursive call made by [transfer_state] (575-586). *)
Definition push_with (rec : tstate -> Z -> outcome (list token * tstate))
    (fuel : nat) (st : tstate) (c : Z) : outcome (list token * tstate) :=
  let transfer (toks : list token) (st : tstate) : outcome (list token * tstate) :=
    let! (next, st') := rec st c in Ok (toks ++ next, st') in
  let invalid := transfer [TError InvalidNumber] Initial in  (* tokenize_invalid_number, 899-911 *)
  match st with
  | Initial =>
      let! t := get_transition initial_map c in
      Ok match t with
         | None => ([TError UnexpectedCharacter], Initial)
         | Some IOperator => ([], ParseOperator [c])
         | Some IDigit => ([], ParseInt (from_digit c) Positive)   (* start_number, 392-397 *)
         | Some IQuote => ([], ParseString [])
         | Some IZero => ([], ParseZero Positive)
         | Some IMinus => ([], ParseMinus)
         | Some IId => ([], ParseId [c])
         | Some INewLine => ([], ParseNewLine)
         | Some ISpace => ([], Initial)
         | Some ISlash => ([], ParseCommentStart)
         end
  | ParseId s =>
      let! t := get_transition id_map c in
      match t with
      | Some _ => Ok ([], ParseId (s ++ [c]))
      | None => transfer [TId s] Initial
      end
  | ParseString s =>
      let! t := get_transition string_map c in
      match t with
      | Some SQuote => Ok ([TString s], Initial)
      | Some SBackslash => Ok ([], ParseEscapeChar s)
      | None => Ok ([], ParseString (s ++ [c]))
      end
  | ParseEscapeChar s =>
      let! t := get_transition escape_map c in
      match t with
      | Some ESelf => continue_string_state s c
      | Some EB => continue_string_state s 0x08
      | Some EF => continue_string_state s 0x0C
      | Some EN => continue_string_state s 0x0A
      | Some ER => continue_string_state s 0x0D
      | Some ET => continue_string_state s 0x09
      | Some EU => Ok ([], ParseUnicodeChar s 0 0)
      | None => transfer [TError UnexpectedCharacter] (ParseString s)
      end
  | ParseUnicodeChar s unicode index =>
      let! t := get_transition unicode_map c in
      match t with
      | Some UDigit => unicode_push s unicode index (c - 0x30)
      | Some ULower => unicode_push s unicode index (c - (0x61 - 10))
      | Some UUpper => unicode_push s unicode index (c - (0x41 - 10))
      | None => transfer [TError InvalidHex] (ParseString s)
      end
  | ParseZero s =>
      let! t := get_transition zero_map c in
      match t with
      | Some ZDot => Ok ([], ParseFracBegin (jb_from_u64 Positive 0) s)
      | Some ZExp => Ok ([], ParseExpBegin (jb_from_u64 s 0) s 0 Positive 0)
      | Some ZBig => Ok ([], ParseBigInt (jb_from_u64 s 0))
      | Some ZTerminal => transfer [TNumber 0] Initial
      | None => invalid
      end
  | ParseInt b s =>
      let! t := get_transition int_map c in
      match t with
      | Some NDigit => let! b' := add_digit b c in Ok ([], ParseInt b' s)
      | Some NDot => Ok ([], ParseFracBegin b s)
      | Some NExp => Ok ([], ParseExpBegin b s 0 Positive 0)
      | Some NBig => Ok ([], ParseBigInt (into_bigint_state b s))
      | Some NTerminal => let! n := number_token fuel b s 0 in transfer [n] Initial
      | None => invalid
      end
  | ParseMinus =>
      let! t := get_transition minus_map c in
      match t with
      | Some MZero => Ok ([], ParseZero Negative)
      | Some MDigit => Ok ([], ParseInt (from_digit c) Negative)
      | None => invalid
      end
  | ParseFracBegin b s =>
      let! t := get_transition frac_begin_map c in
      match t with
      | Some _ => let! st' := frac_add_digit b s 0 c in Ok ([], st')
      | None => invalid
      end
  | ParseFrac b s fe =>
      let! t := get_transition frac_map c in
      match t with
      | Some FDigit => let! st' := frac_add_digit b s fe c in Ok ([], st')
      | Some FExp => Ok ([], ParseExpBegin b s fe Positive 0)
      | Some FTerminal => let! n := number_token fuel b s fe in transfer [n] Initial
      | None => invalid
      end
  | ParseExpBegin b s fe es e =>
      let! t := get_transition exp_begin_map c in
      match t with
      | Some BDigit => let! st' := exp_add_digit b s fe es e c in Ok ([], st')
      | Some BPlus => Ok ([], ParseExpSign b s fe es e)
      | Some BMinus => Ok ([], ParseExpSign b s fe Negative e)
      | Some BTerminal => let! n := exp_state_into_token fuel b s fe es e in transfer [n] Initial
      | None => invalid
      end
  | ParseExpSign b s fe es e | ParseExp b s fe es e =>
      let! t := get_transition exp_map c in
      match t with
      | Some XDigit => let! st' := exp_add_digit b s fe es e c in Ok ([], st')
      | Some XTerminal => let! n := exp_state_into_token fuel b s fe es e in transfer [n] Initial
      | None => invalid
      end
  | ParseBigInt b =>
      let! t := get_transition big_int_map c in
      match t with
      | Some _ => transfer [TBigInt b] Initial
      | None => invalid
      end
  | ParseNewLine =>
      let! t := get_transition new_line_map c in
      match t with
      | Some _ => Ok ([], ParseNewLine)
      | None => transfer [TNewLine] Initial
      end
  | ParseCommentStart =>
      let! t := get_transition comment_start_map c in
      Ok match t with
         | Some CSlash => ([], ParseSinglelineComment)
         | Some CStar => ([], ParseMultilineComment)
         | None => ([TError UnexpectedCharacter], Initial)
         end
  | ParseSinglelineComment =>
      let! t := get_transition singleline_map c in
      Ok match t with
         | Some _ => ([], ParseNewLine)
         | None => ([], ParseSinglelineComment)
         end
  | ParseMultilineComment =>
      let! t := get_transition multiline_map c in
      Ok match t with
         | Some _ => ([], ParseMultilineCommentAsterix)
         | None => ([], ParseMultilineComment)
         end
  | ParseMultilineCommentAsterix =>
      let! t := get_transition asterix_map c in
      Ok match t with
         | Some CSlash => ([], Initial)
         | Some CStar => ([], ParseMultilineCommentAsterix)
         | None => ([], ParseMultilineComment)
         end
  | ParseOperator s =>
      let! t := get_transition operator_map c in
      let emit := let! tok := unwrap (operator_to_token s) in transfer [tok] Initial in
      match t with
      | Some _ =>
          match operator_to_token (s ++ [c]) with
          | Some _ => Ok ([], ParseOperator (s ++ [c]))
          | None => emit
          end
      | None => emit
      end
  end.

(** The recursion of [push] through [transfer_state] is at most one deep: it is only called
    with Initial and ParseString, whose transitions do not call it again.  A deeper call
    would show as [NoFuel]; [push_total] below and C31 show that it does not happen. *)
Definition push (fuel : nat) : tstate -> Z -> outcome (list token * tstate) :=
  push_with (push_with (fun _ _ => NoFuel) fuel) fuel.

(** mod.rs:143-174 *)
Definition tend (fuel : nat) (st : tstate) : outcome (list token) :=
  match st with
  | Initial | ParseNewLine | ParseSinglelineComment => Ok []
  | ParseId s => Ok [TId s]
  | ParseString _ | ParseEscapeChar _ | ParseUnicodeChar _ _ _ => Ok [TError MissingQuotes]
  | ParseCommentStart => Ok [TError UnexpectedCharacter]
  | ParseMultilineComment | ParseMultilineCommentAsterix => Ok [TError CommentClosingExpected]
  | ParseZero _ => Ok [TNumber 0]
  | ParseInt b s => let! n := number_token fuel b s 0 in Ok [n]
  | ParseFrac b s fe => let! n := number_token fuel b s fe in Ok [n]
  | ParseExp b s fe es e => let! n := exp_state_into_token fuel b s fe es e in Ok [n]
  | ParseBigInt b => Ok [TBigInt b]
  | ParseMinus | ParseFracBegin _ _ | ParseExpBegin _ _ _ _ _ | ParseExpSign _ _ _ _ _ =>
      Ok [TError InvalidNumber]
  | ParseOperator s => let! t := unwrap (operator_to_token s) in Ok [t]
  end.

(** mod.rs:1038-1058: the iterator (manager and maps omitted). *)
Record titer := { it_chars : list Z; it_cache : list token; it_state : tstate; it_end : bool }.
Definition titer_new (input : list Z) : titer :=
  {| it_chars := input; it_cache := []; it_state := Initial; it_end := false |}.

(** mod.rs:1063-1081.  [n] bounds the iterations of [loop]: one per character, one for the
    end and one to deliver. *)
Fixpoint titer_loop (n fuel : nat) (it : titer) : outcome (option token * titer) :=
  match n with
  | O => NoFuel
  | S n' =>
      match it_cache it with
      | t :: cache =>
          Ok (Some t, {| it_chars := it_chars it; it_cache := cache; it_state := it_state it; it_end := it_end it |})
      | [] =>
          if it_end it then Ok (None, it) else
          match it_chars it with
          | c :: chars =>
              let! (toks, st) := push fuel (it_state it) c in
              titer_loop n' fuel {| it_chars := chars; it_cache := toks; it_state := st; it_end := false |}
          | [] =>
              let! toks := tend fuel (it_state it) in
              titer_loop n' fuel {| it_chars := []; it_cache := toks; it_state := Initial; it_end := true |}
          end
      end
  end.
Definition titer_next (fuel : nat) (it : titer) : outcome (option token * titer) :=
  titer_loop (length (it_chars it) + 3) fuel it.

(** mod.rs:1034-1036: [collect]; [n] bounds the number of items. *)
Fixpoint collect (n fuel : nat) (it : titer) : outcome (list token) :=
  match n with
  | O => NoFuel
  | S n' =>
      let! (o, it') := titer_next fuel it in
      match o with
      | None => Ok []
      | Some t => let! r := collect n' fuel it' in Ok (t :: r)
      end
  end.
Definition tokenize (fuel : nat) (input : list Z) : outcome (list token) :=
  collect (2 * length input + 2) fuel (titer_new input).
