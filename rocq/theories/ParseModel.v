(** Model of the deck parser generated by lemon: src/parser/deckgrammar.inc, and of the loop over
    the tokens in Parser::parse (src/parser/parser.cpp:83-93).  The semantic actions are a
    parameter here; DeckModel.v supplies those of the deck grammar. *)
From Coq Require Import ZArith List Bool.
Import ListNotations.
Local Open Scope Z_scope.

(** ** Tables *)
(** [yy_action] — deckgrammar.inc:153-171. *)
Definition yy_action : list Z :=
  [13; 12; 69; 23; 21; 31; 3; 58; 54; 32; 15; 17; 18; 4; 62; 55; 56; 57; 58; 44; 32; 1; 13; 12; 4;
   16; 55; 56; 57; 58; 30; 32; 73; 66; 50; 4; 54; 55; 56; 57; 6; 7; 28; 63; 24; 74; 59; 21; 31;
   33; 22; 54; 27; 37; 35; 19; 68; 23; 21; 31; 65; 124; 54; 54; 39; 40; 41; 64; 36; 123; 5; 42;
   14; 124; 26; 34; 27; 36; 35; 19; 43; 14; 2; 26; 34; 60; 9; 8; 39; 40; 41; 124; 47; 23; 21; 31;
   61; 24; 54; 59; 21; 31; 46; 24; 54; 59; 21; 31; 25; 24; 54; 59; 21; 31; 124; 58; 54; 32; 124;
   29; 38; 4; 3; 55; 56; 57; 48; 23; 21; 31; 10; 11; 54; 53; 21; 31; 124; 124; 54; 67; 21; 31;
   124; 71; 54; 49; 21; 31; 71; 70; 54; 45; 51; 20; 70; 54; 72; 124; 52; 21; 31; 124; 124; 54].
(** [yy_lookahead] — deckgrammar.inc:172-190. *)
Definition yy_lookahead : list Z :=
  [1; 2; 33; 34; 35; 36; 13; 8; 39; 10; 5; 1; 2; 14; 15; 16; 17; 18; 8; 6; 10; 14; 1; 2; 14; 12;
   16; 17; 18; 8; 10; 10; 6; 36; 37; 14; 39; 16; 17; 18; 1; 2; 8; 31; 32; 0; 34; 35; 36; 6; 38;
   39; 7; 11; 9; 10; 33; 34; 35; 36; 36; 40; 39; 39; 19; 20; 21; 15; 22; 23; 24; 25; 26; 40; 28;
   29; 7; 22; 9; 10; 25; 26; 12; 28; 29; 15; 1; 2; 19; 20; 21; 40; 33; 34; 35; 36; 31; 32; 39; 34;
   35; 36; 31; 32; 39; 34; 35; 36; 31; 32; 39; 34; 35; 36; 40; 8; 39; 10; 40; 10; 11; 14; 13; 16;
   17; 18; 33; 34; 35; 36; 3; 4; 39; 34; 35; 36; 40; 40; 39; 34; 35; 36; 40; 22; 39; 34; 35; 36;
   22; 28; 39; 30; 36; 27; 28; 39; 30; 40; 34; 35; 36; 40; 40; 39].
(** [yy_shift_ofst] — deckgrammar.inc:193-198. *)
Definition yy_shift_ofst : list Z :=
  [69; (-1); 21; 21; 21; 45; 107; 107; 107; 107; 107; 107; 107; 107; 20; 10; 20; 107; 107; 109;
   13; 127; 70; 39; 85; 52; 26; 34; 43; 42; (-7); 5; 7].
(** [yy_reduce_ofst] — deckgrammar.inc:201-204. *)
Definition yy_reduce_ofst : list Z :=
  [46; 12; 65; 71; 77; 55; 93; 23; (-31); 59; 105; 111; 99; 124; 126; (-3); 121; 116; 24].
(** [yy_default] — deckgrammar.inc:205-214. *)
Definition yy_default : list Z :=
  [122; 122; 122; 122; 122; 122; 122; 122; 122; 122; 122; 122; 122; 122; 122; 122; 122; 122; 122;
   122; 122; 102; 122; 96; 93; 122; 122; 122; 122; 122; 87; 104; 115; 79; 80; 81; 82; 83; 84; 119;
   120; 121; 76; 75; 77; 85; 90; 91; 94; 100; 103; 105; 97; 98; 111; 114; 116; 117; 118; 99; 109;
   112; 110; 113; 108; 106; 107; 101; 95; 92; 88; 89; 86; 78].
(** [yyRuleInfo]: left-hand side and number of symbols of every rule — deckgrammar.inc:670-722. *)
Definition yyRuleInfo : list (Z * nat) :=
  [(23,1%nat); (24,2%nat); (24,1%nat); (25,3%nat); (25,2%nat); (25,3%nat); (25,1%nat); (25,1%nat); (25,1%nat); (29,3%nat);
   (29,2%nat); (27,3%nat); (27,1%nat); (30,1%nat); (30,1%nat); (30,1%nat); (28,3%nat); (31,3%nat); (31,3%nat); (31,1%nat);
   (33,3%nat); (33,3%nat); (33,1%nat); (32,2%nat); (32,2%nat); (32,1%nat); (34,3%nat); (34,3%nat); (34,1%nat); (35,3%nat);
   (35,1%nat); (37,2%nat); (37,2%nat); (37,1%nat); (36,3%nat); (36,4%nat); (36,3%nat); (36,1%nat); (38,3%nat); (38,1%nat);
   (39,1%nat); (39,1%nat); (39,1%nat); (39,1%nat); (39,1%nat); (26,1%nat); (26,1%nat); (26,1%nat)].

(** deckgrammar.inc:63, 74-87, 191-192, 199-200, 215. *)
Definition YYNOCODE := 41.
Definition YYSTACKDEPTH : nat := 100.
Definition YYNSTATE := 74.
Definition YYNRULE := 48.
Definition YYERRORSYMBOL := 22.
Definition YY_ACCEPT_ACTION := YYNSTATE + YYNRULE + 1.
Definition YY_ERROR_ACTION := YYNSTATE + YYNRULE.
Definition YY_SHIFT_USE_DFLT := -8.
Definition YY_SHIFT_MAX := 32.
Definition YY_REDUCE_USE_DFLT := -32.
Definition YY_REDUCE_MAX := 18.
Definition YY_SZ_ACTTAB := Z.of_nat (length yy_action).
Definition entry_of (l : list Z) (i : Z) : Z := nth (Z.to_nat i) l 0.

(** [yy_find_shift_action] — deckgrammar.inc:521-567 (no fallback and no wildcard tokens are
    declared). *)
Definition find_shift_action (stateno lookahead : Z) : Z :=
  if (stateno >? YY_SHIFT_MAX) || (entry_of yy_shift_ofst stateno =? YY_SHIFT_USE_DFLT)
  then entry_of yy_default stateno
  else
    let i := entry_of yy_shift_ofst stateno + lookahead in
    if (i <? 0) || (i >=? YY_SZ_ACTTAB) || negb (entry_of yy_lookahead i =? lookahead)
    then entry_of yy_default stateno
    else entry_of yy_action i.

(** [yy_find_reduce_action] — deckgrammar.inc:577-602; [None]: an assertion fails. *)
Definition find_reduce_action (stateno lookahead : Z) : option Z :=
  if stateno >? YY_REDUCE_MAX then Some (entry_of yy_default stateno)
  else
    let i := entry_of yy_reduce_ofst stateno in
    if i =? YY_REDUCE_USE_DFLT then None
    else
      let i := i + lookahead in
      if (i <? 0) || (i >=? YY_SZ_ACTTAB) || negb (entry_of yy_lookahead i =? lookahead)
      then Some (entry_of yy_default stateno)
      else Some (entry_of yy_action i).

Section Engine.
  (** Values attached to symbols ([ParserToken]), the state changed by the actions, and the
      exceptions they throw. *)
  Context {V St E : Type}.
  Variable no_value : V.
  (** The action of a rule, given the values of the symbols on its right-hand side. *)
  Variable act : nat -> list V -> St -> E + (V * St).
  (** [YYSTACKDEPTH]. *)
  Variable depth : nat.

  (** [yyStackEntry] and [yyParser] — deckgrammar.inc:244-269.  The stack has its top first;
      [yyidx] is its length minus one. *)
  Record entry := mkEntry { stateno : Z; major : Z; minor : V }.
  Record yyparser := mkParser { stack : list entry; errcnt : Z }.

  (** What a function call leads to: it returns, an action throws, [yy_syntax_error] throws
      [ParserInternalError], an assertion fails (or memory outside the stack is read), the error
      recovery is entered (not modelled), or the loop does not end within the given steps. *)
  Inductive outcome (X : Type) := Ret (x : X) | Throw (e : E) | Internal | Assertion | Recovery | NoFuel.
  Arguments Ret {X}. Arguments Throw {X}. Arguments Internal {X}. Arguments Assertion {X}.
  Arguments Recovery {X}. Arguments NoFuel {X}.

  (** [yy_shift] and [yyStackOverflow] — deckgrammar.inc:607-666: on overflow the whole stack is
      dropped. *)
  Definition yy_shift (st : list entry) (state maj : Z) (v : V) : list entry :=
    if Nat.leb depth (length st) then [] else mkEntry state maj v :: st.

  (** [yy_reduce] and [yy_accept] — deckgrammar.inc:730-1016, 1058-1071. *)
  Definition yy_reduce (st : list entry) (rule : nat) (s : St) : outcome (list entry * St) :=
    let (lhs, size) := nth rule yyRuleInfo (0, 0%nat) in
    if Nat.ltb (length st) size then Assertion
    else
      match act rule (rev (map minor (firstn size st))) s with
      | inl e => Throw e
      | inr (v, s') =>
          match skipn size st with
          | [] => Assertion
          | top :: rest =>
              match find_reduce_action (stateno top) lhs with
              | None => Assertion
              | Some a =>
                  if a <? YYNSTATE then Ret (yy_shift (top :: rest) a lhs v, s')
                  else if a =? YY_ACCEPT_ACTION then Ret ([], s')
                  else Assertion
              end
          end
      end.

  (** The loop of [Parse] — deckgrammar.inc:1130-1239. *)
  Fixpoint parse_loop (fuel : nat) (p : yyparser) (maj : Z) (v : V) (s : St) : outcome (yyparser * St) :=
    match fuel with
    | O => NoFuel
    | S n =>
        match stack p with
        | [] => Assertion
        | top :: _ =>
            let a := find_shift_action (stateno top) maj in
            if a <? YYNSTATE then
              if maj =? 0 then Assertion
              else Ret (mkParser (yy_shift (stack p) a maj v) (errcnt p - 1), s)
            else if a <? YYNSTATE + YYNRULE then
              match yy_reduce (stack p) (Z.to_nat (a - YYNSTATE)) s with
              | Ret (st, s') =>
                  match st with
                  | [] => Ret (mkParser [] (errcnt p), s')
                  | _ => parse_loop n (mkParser st (errcnt p)) maj v s'
                  end
              | Throw e => Throw e
              | Internal => Internal
              | Assertion => Assertion
              | Recovery => Recovery
              | NoFuel => NoFuel
              end
            else if a =? YY_ERROR_ACTION then
              if errcnt p <? 0 then Internal else Recovery
            else Assertion
        end
    end.

  (** [Parse] — deckgrammar.inc:1092-1241. *)
  Definition parse_token (fuel : nat) (p : yyparser) (maj : Z) (v : V) (s : St) : outcome (yyparser * St) :=
    let p := match stack p with [] => mkParser [mkEntry 0 0 no_value] (-1) | _ => p end in
    parse_loop fuel p maj v s.

  (** What [Parser::parse] does with the tokens — parser.cpp:83-93: it finishes, an action throws,
      [ParserError("Syntax Error", tok)] is thrown, [ParserInternalError] escapes from the call
      outside the [try] block, or one of the abnormal ends above. *)
  Inductive parsed :=
  | Finished (s : St)
  | ActionError (e : E)
  | SyntaxError (tok : V)
  | EscapedInternalError
  | Aborted
  | EnteredRecovery
  | OutOfFuel.

  Fixpoint parse_tokens (fuel : nat) (p : yyparser) (toks : list (Z * V)) (s : St) : parsed :=
    match toks with
    | [] =>
        match parse_token fuel p 0 no_value s with
        | Ret (_, s') => Finished s'
        | Throw e => ActionError e
        | Internal => EscapedInternalError
        | Assertion => Aborted
        | Recovery => EnteredRecovery
        | NoFuel => OutOfFuel
        end
    | (maj, v) :: toks' =>
        match parse_token fuel p maj v s with
        | Ret (p', s') => parse_tokens fuel p' toks' s'
        | Throw e => ActionError e
        | Internal => SyntaxError v
        | Assertion => Aborted
        | Recovery => EnteredRecovery
        | NoFuel => OutOfFuel
        end
    end.
  Definition new_parser : yyparser := mkParser [] 0.
  Definition parse (fuel : nat) (toks : list (Z * V)) (s : St) : parsed := parse_tokens fuel new_parser toks s.
End Engine.
Arguments outcome : clear implicits.
Arguments parsed : clear implicits.
