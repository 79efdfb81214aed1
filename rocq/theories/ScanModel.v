(** Model of the scanner for input decks: src/parser/internal/deckscanner.cpp (generated by Ragel from
    parser/deckscanner.rl) with its transition tables as they are, and src/parser/tokenlist.hpp.

    Pointers into [buf] are offsets; [ts = 0] (the null pointer) is [None].  Characters are [char]s
    of a platform where [char] is signed. *)
From Coq Require Import ZArith List Bool Ascii.
Import ListNotations.
Local Open Scope Z_scope.

(** ** Tables *)
(** [_deck_actions] — internal/deckscanner.cpp:24-36. *)
Definition deck_actions : list Z :=
  [0; 1; 0; 1; 1; 1; 2; 1; 3; 1; 4; 1; 13; 1; 14; 1; 15; 1; 16; 1; 17; 1; 18; 1; 19; 1; 20; 1; 21; 1;
   22; 1; 23; 1; 24; 1; 25; 1; 26; 1; 28; 1; 29; 1; 30; 1; 31; 1; 32; 1; 33; 1; 34; 1; 35; 1; 36; 2;
   0; 26; 2; 0; 27; 2; 4; 5; 2; 4; 6; 2; 4; 7; 2; 4; 8; 2; 4; 9; 2; 4; 10; 2; 4; 11; 2; 4; 12].
(** [_deck_key_offsets] — internal/deckscanner.cpp:38-45. *)
Definition deck_key_offsets : list Z :=
  [0; 0; 3; 4; 7; 8; 12; 14; 15; 17; 20; 58; 62; 64; 66; 71; 79; 86; 96; 104; 113; 122; 131; 140; 149;
   158; 167; 176; 185; 194; 203; 212; 221; 230; 239; 248; 257; 266; 275; 284; 293; 302; 311].
(** [_deck_trans_keys] — internal/deckscanner.cpp:47-87. *)
Definition deck_trans_keys : list Z :=
  [10; 34; 92; 10; 10; 39; 92; 10; 43; 45; 48; 57; 48; 57; 10; 10; 42; 10; 42; 47; 10; 34; 39; 40; 41;
   42; 43; 44; 45; 46; 47; 59; 61; 69; 94; 95; 100; 101; 102; 105; 114; 115; 123; 125; 33; 38; 48;
   57; 58; 64; 65; 90; 91; 96; 97; 122; 124; 126; 69; 101; 48; 57; 48; 57; 42; 47; 46; 69; 101; 48;
   57; 58; 95; 48; 57; 65; 90; 97; 122; 95; 48; 58; 65; 90; 97; 122; 43; 45; 58; 95; 48; 57; 65; 90;
   97; 122; 58; 95; 48; 57; 65; 90; 97; 122; 58; 95; 111; 48; 57; 65; 90; 97; 122; 58; 95; 117; 48;
   57; 65; 90; 97; 122; 58; 95; 98; 48; 57; 65; 90; 97; 122; 58; 95; 108; 48; 57; 65; 90; 97; 122;
   58; 95; 101; 48; 57; 65; 90; 97; 122; 58; 95; 108; 48; 57; 65; 90; 97; 122; 58; 95; 111; 48; 57;
   65; 90; 97; 122; 58; 95; 97; 48; 57; 65; 90; 98; 122; 58; 95; 116; 48; 57; 65; 90; 97; 122; 58;
   95; 110; 48; 57; 65; 90; 97; 122; 58; 95; 116; 48; 57; 65; 90; 97; 122; 58; 95; 101; 48; 57; 65;
   90; 97; 122; 58; 95; 103; 48; 57; 65; 90; 97; 122; 58; 95; 101; 48; 57; 65; 90; 97; 122; 58; 95;
   114; 48; 57; 65; 90; 97; 122; 58; 95; 101; 48; 57; 65; 90; 97; 122; 58; 95; 97; 48; 57; 65; 90;
   98; 122; 58; 95; 108; 48; 57; 65; 90; 97; 122; 58; 95; 116; 48; 57; 65; 90; 97; 122; 58; 95; 114;
   48; 57; 65; 90; 97; 122; 58; 95; 105; 48; 57; 65; 90; 97; 122; 58; 95; 110; 48; 57; 65; 90; 97;
   122; 58; 95; 103; 48; 57; 65; 90; 97; 122; 0].
(** [_deck_single_lengths] — internal/deckscanner.cpp:89-96. *)
Definition deck_single_lengths : list Z :=
  [0; 3; 1; 3; 1; 2; 0; 1; 2; 3; 24; 2; 0; 2; 3; 2; 1; 4; 2; 3; 3; 3; 3; 3; 3; 3; 3; 3; 3; 3; 3; 3; 3;
   3; 3; 3; 3; 3; 3; 3; 3; 3; 0].
(** [_deck_range_lengths] — internal/deckscanner.cpp:98-105. *)
Definition deck_range_lengths : list Z :=
  [0; 0; 0; 0; 0; 1; 1; 0; 0; 0; 7; 1; 1; 0; 1; 3; 3; 3; 3; 3; 3; 3; 3; 3; 3; 3; 3; 3; 3; 3; 3; 3; 3;
   3; 3; 3; 3; 3; 3; 3; 3; 3; 0].
(** [_deck_index_offsets] — internal/deckscanner.cpp:107-114. *)
Definition deck_index_offsets : list Z :=
  [0; 0; 4; 6; 10; 12; 16; 18; 20; 23; 27; 59; 63; 65; 68; 73; 79; 84; 92; 98; 105; 112; 119; 126; 133;
   140; 147; 154; 161; 168; 175; 182; 189; 196; 203; 210; 217; 224; 231; 238; 245; 252; 259].
(** [_deck_indicies] — internal/deckscanner.cpp:116-150. *)
Definition deck_indicies : list Z :=
  [1; 2; 3; 0; 1; 0; 5; 6; 7; 4; 5; 4; 9; 9; 10; 8; 10; 8; 13; 12; 15; 16; 14; 15; 16; 17; 14; 19; 0;
   4; 21; 22; 23; 24; 25; 26; 27; 28; 30; 31; 33; 34; 32; 35; 33; 36; 37; 38; 39; 40; 41; 20; 29;
   20; 32; 20; 32; 20; 18; 43; 43; 27; 42; 10; 42; 45; 12; 44; 27; 43; 43; 29; 46; 47; 32; 32; 32;
   32; 8; 47; 47; 47; 47; 48; 9; 9; 47; 32; 50; 32; 32; 49; 47; 32; 50; 32; 32; 49; 47; 32; 51; 32;
   32; 32; 49; 47; 32; 52; 32; 32; 32; 49; 47; 32; 53; 32; 32; 32; 49; 47; 32; 54; 32; 32; 32; 49;
   47; 32; 55; 32; 32; 32; 49; 47; 32; 56; 32; 32; 32; 49; 47; 32; 57; 32; 32; 32; 49; 47; 32; 58;
   32; 32; 32; 49; 47; 32; 59; 32; 32; 32; 49; 47; 32; 60; 32; 32; 32; 49; 47; 32; 61; 32; 32; 32;
   49; 47; 32; 63; 32; 32; 32; 62; 47; 32; 64; 32; 32; 32; 49; 47; 32; 65; 32; 32; 32; 49; 47; 32;
   66; 32; 32; 32; 49; 47; 32; 67; 32; 32; 32; 49; 47; 32; 68; 32; 32; 32; 49; 47; 32; 69; 32; 32;
   32; 49; 47; 32; 70; 32; 32; 32; 49; 47; 32; 71; 32; 32; 32; 49; 47; 32; 72; 32; 32; 32; 49; 47;
   32; 73; 32; 32; 32; 49; 47; 32; 74; 32; 32; 32; 49; 20; 0].
(** [_deck_trans_targs] — internal/deckscanner.cpp:152-163. *)
Definition deck_trans_targs : list Z :=
  [1; 1; 10; 2; 3; 3; 10; 4; 10; 6; 12; 10; 7; 10; 8; 8; 9; 42; 10; 10; 0; 10; 10; 10; 10; 10; 10; 11;
   13; 14; 10; 10; 15; 17; 10; 19; 24; 28; 34; 37; 10; 10; 10; 5; 10; 10; 10; 16; 10; 10; 18; 20;
   21; 22; 23; 15; 25; 26; 27; 15; 29; 30; 10; 31; 32; 33; 15; 35; 36; 15; 38; 39; 40; 41; 15].
(** [_deck_trans_actions] — internal/deckscanner.cpp:165-176. *)
Definition deck_trans_actions : list Z :=
  [0; 1; 35; 0; 0; 1; 33; 0; 55; 0; 0; 53; 0; 60; 0; 1; 0; 3; 37; 57; 0; 17; 19; 29; 25; 23; 27; 84; 9;
   81; 21; 11; 78; 78; 31; 0; 0; 0; 0; 0; 13; 15; 51; 0; 41; 39; 49; 0; 47; 45; 0; 0; 0; 0; 0; 69;
   0; 0; 0; 66; 0; 0; 43; 0; 0; 0; 63; 0; 0; 72; 0; 0; 0; 0; 75].
(** [_deck_to_state_actions] — internal/deckscanner.cpp:178-185. *)
Definition deck_to_state_actions : list Z :=
  [0; 0; 0; 0; 0; 0; 0; 0; 5; 0; 5; 0; 0; 0; 0; 0; 0; 0; 0; 0; 0; 0; 0; 0; 0; 0; 0; 0; 0; 0; 0; 0; 0;
   0; 0; 0; 0; 0; 0; 0; 0; 0; 0].
(** [_deck_from_state_actions] — internal/deckscanner.cpp:187-194. *)
Definition deck_from_state_actions : list Z :=
  [0; 0; 0; 0; 0; 0; 0; 0; 0; 0; 7; 0; 0; 0; 0; 0; 0; 0; 0; 0; 0; 0; 0; 0; 0; 0; 0; 0; 0; 0; 0; 0; 0;
   0; 0; 0; 0; 0; 0; 0; 0; 0; 0].
(** [_deck_eof_trans] — internal/deckscanner.cpp:196-203. *)
Definition deck_eof_trans : list Z :=
  [0; 0; 0; 0; 0; 9; 9; 12; 0; 0; 0; 43; 43; 45; 47; 9; 49; 50; 50; 50; 50; 50; 50; 50; 50; 50; 50; 50;
   50; 50; 63; 50; 50; 50; 50; 50; 50; 50; 50; 50; 50; 50; 0].
Definition tbl (l : list Z) (i : Z) : Z := nth (Z.to_nat i) l 0.

(** Token codes — deckgrammar.hpp:1-21. *)
Definition PLUS := 1. Definition MINUS := 2. Definition DIVIDE := 3. Definition TIMES := 4.
Definition EXPONENT := 5. Definition SEMICOLON := 6. Definition INCLUDE := 7. Definition STRING := 8.
Definition RBRACE := 9. Definition IDENTIFIER := 10. Definition LBRACE := 11. Definition COMMA := 12.
Definition EQUAL := 13. Definition LBRACKET := 14. Definition RBRACKET := 15.
Definition PATHIDENTIFIER := 16. Definition INTEGER := 17. Definition FLOAT := 18.
Definition INT_DECL := 19. Definition FLOAT_DECL := 20. Definition STRING_DECL := 21.

(** [Token] — tokenlist.hpp:43-99; the constructor turns a path identifier into an identifier
    (l. 53).  The file name is left out: it is the same for all tokens of a scan. *)
Record token := mkTok { t_line : Z; t_code : Z; t_text : list ascii }.
Definition make_token (line code : Z) (text : list ascii) : token :=
  mkTok line (if code =? PATHIDENTIFIER then IDENTIFIER else code) text.

(** The value of a [char]. *)
Definition schar (c : ascii) : Z :=
  let n := Z.of_N (N_of_ascii c) in if n <? 128 then n else n - 256.

(** Binary search for a single key — deckscanner.cpp:290-308.  The result is the position of the
    key.  The interval shrinks in every iteration; [24] keys need at most [5] iterations, [64] are
    allowed here. *)
Fixpoint search_single (n : nat) (c lower upper : Z) : option Z :=
  match n with
  | O => None
  | S n' =>
      if upper <? lower then None
      else
        let mid := lower + (upper - lower) / 2 in
        if c <? tbl deck_trans_keys mid then search_single n' c lower (mid - 1)
        else if c >? tbl deck_trans_keys mid then search_single n' c (mid + 1) upper
        else Some mid
  end.
(** Binary search for a range — deckscanner.cpp:313-331. *)
Fixpoint search_range (n : nat) (c lower upper : Z) : option Z :=
  match n with
  | O => None
  | S n' =>
      if upper <? lower then None
      else
        let mid := lower + (upper - lower) / 2 / 2 * 2 in
        if c <? tbl deck_trans_keys mid then search_range n' c lower (mid - 2)
        else if c >? tbl deck_trans_keys (mid + 1) then search_range n' c (mid + 2) upper
        else Some mid
  end.

(** The transition taken in state [cs] on character [c] — deckscanner.cpp:287-336. *)
Definition find_trans (cs : Z) (c : ascii) : Z :=
  let c := schar c in
  let keys := tbl deck_key_offsets cs in
  let trans := tbl deck_index_offsets cs in
  let klen := tbl deck_single_lengths cs in
  let single := if klen >? 0 then search_single 64 c keys (keys + klen - 1) else None in
  let pos :=
    match single with
    | Some mid => trans + (mid - keys)
    | None =>
        let keys := keys + klen in
        let trans := trans + klen in
        let klen := tbl deck_range_lengths cs in
        let range := if klen >? 0 then search_range 64 c keys (keys + klen * 2 - 2) else None in
        match range with
        | Some mid => trans + (mid - keys) / 2
        | None => trans + klen
        end
    end in
  tbl deck_indicies pos.

(** The variables of [do_scan] — deckscanner.cpp:219-234. *)
Record mach := mkM { cs : Z; ts : option nat; te : nat; act : Z; line : Z; toks : list token }.

Definition set_cs (m : mach) (x : Z) : mach := mkM x (ts m) (te m) (act m) (line m) (toks m).
Definition set_ts (m : mach) (x : option nat) : mach := mkM (cs m) x (te m) (act m) (line m) (toks m).
Definition set_te (m : mach) (x : nat) : mach := mkM (cs m) (ts m) x (act m) (line m) (toks m).
Definition set_act (m : mach) (x : Z) : mach := mkM (cs m) (ts m) (te m) x (line m) (toks m).
Definition new_line (m : mach) : mach := mkM (cs m) (ts m) (te m) (act m) (line m + 1) (toks m).
Definition insert (m : mach) (code : Z) (text : list ascii) : mach :=
  mkM (cs m) (ts m) (te m) (act m) (line m) (toks m ++ [make_token (line m) code text]).

(** [std::string(str, len)] — tokenlist.hpp:150-153. *)
Definition sub (buf : list ascii) (from len : nat) : list ascii := firstn len (skipn from buf).

Section Exec.
  Variable buf : list ascii.

  (** [ts,te-ts] and [ts+1,te-ts-2]. *)
  Definition lexeme (m : mach) : list ascii :=
    match ts m with Some t => sub buf t (te m - t) | None => [] end.
  Definition inside (m : mach) : list ascii :=
    match ts m with Some t => sub buf (t + 1) (te m - t - 2) | None => [] end.

  (** The actions — deckscanner.cpp:347-516.  The result: the machine, the position [p] and
      whether the action is a [goto _again]. *)
  Definition run_action (a : Z) (m : mach) (p : nat) : mach * nat * bool :=
    let go (m : mach) := (m, p, false) in
    let now (code : Z) := (insert (set_te m (p + 1)) code [], p, false) in
    let prev (code : Z) (text : mach -> list ascii) :=
      let m' := set_te m p in (insert m' code (text m'), (p - 1)%nat, false) in
    let back (code : Z) (text : mach -> list ascii) := (insert m code (text m), (te m - 1)%nat, false) in
    let none (_ : mach) : list ascii := [] in
    match a with
    | 0 => go (new_line m)
    | 1 => (set_cs m 10, p, true)
    | 4 => go (set_te m (p + 1))
    | 5 => go (set_act m 14) | 6 => go (set_act m 15) | 7 => go (set_act m 16) | 8 => go (set_act m 17)
    | 9 => go (set_act m 18) | 10 => go (set_act m 19) | 11 => go (set_act m 26) | 12 => go (set_act m 27)
    | 13 => now EQUAL | 14 => now LBRACE | 15 => now RBRACE | 16 => now LBRACKET | 17 => now RBRACKET
    | 18 => now SEMICOLON | 19 => now COMMA | 20 => now PLUS | 21 => now MINUS | 22 => now TIMES
    | 23 => now EXPONENT
    | 24 | 25 => let m' := set_te m (p + 1) in (insert m' STRING (inside m'), p, false)
    | 26 | 27 => go (set_te m (p + 1))
    | 28 => (set_cs (set_te m (p + 1)) 8, p, true)
    | 29 => prev DIVIDE none
    | 30 => prev INT_DECL none
    | 31 => prev IDENTIFIER lexeme
    | 32 => prev PATHIDENTIFIER lexeme
    | 33 => prev INTEGER lexeme
    | 34 => prev FLOAT lexeme
    | 35 => back DIVIDE none
    | 36 =>
        match act m with
        | 14 => back INT_DECL none
        | 15 | 16 | 17 => back FLOAT_DECL none
        | 18 => back STRING_DECL none
        | 19 => back IDENTIFIER lexeme
        | 26 => back INTEGER lexeme
        | 27 => back FLOAT lexeme
        | _ => go m
        end
    | _ => go m
    end.
  Fixpoint run_actions (l : list Z) (m : mach) (p : nat) : mach * nat :=
    match l with
    | [] => (m, p)
    | a :: l' => match run_action a m p with
                 | (m', p', true) => (m', p')
                 | (m', p', false) => run_actions l' m' p'
                 end
    end.
  (** The list of actions that starts at an offset of [_deck_actions]. *)
  Definition action_list (i : Z) : list Z :=
    firstn (Z.to_nat (tbl deck_actions i)) (skipn (Z.to_nat (i + 1)) deck_actions).

  (** Label [_eof_trans] — deckscanner.cpp:337-517. *)
  Definition take_trans (trans : Z) (m : mach) (p : nat) : mach * nat :=
    let m := set_cs m (tbl deck_trans_targs trans) in
    if tbl deck_trans_actions trans =? 0 then (m, p)
    else run_actions (action_list (tbl deck_trans_actions trans)) m p.

  (** Actions on leaving and on entering a state — deckscanner.cpp:275-285, 519-530. *)
  Definition from_state (m : mach) (p : nat) : mach :=
    fold_left (fun m a => if a =? 3 then set_ts m (Some p) else m) (action_list (tbl deck_from_state_actions (cs m))) m.
  Definition to_state (m : mach) : mach :=
    fold_left (fun m a => if a =? 2 then set_ts m None else m) (action_list (tbl deck_to_state_actions (cs m))) m.

  (** The generated loop — deckscanner.cpp:263-546, one case per label. *)
  Inductive label := Resume | Again | TestEof.
  Fixpoint exec (fuel : nat) (pe : nat) (eof : bool) (l : label) (m : mach) (p : nat) : option mach :=
    match fuel with
    | O => None
    | S n =>
        match l with
        | Resume =>
            let m := from_state m p in
            let (m, p) := take_trans (find_trans (cs m) (nth p buf zero)) m p in
            exec n pe eof Again m p
        | Again =>
            let m := to_state m in
            if cs m =? 0 then Some m
            else
              let p := (p + 1)%nat in
              if negb (Nat.eqb p pe) then exec n pe eof Resume m p else exec n pe eof TestEof m p
        | TestEof =>
            if eof && (tbl deck_eof_trans (cs m) >? 0) then
              let (m, p) := take_trans (tbl deck_eof_trans (cs m) - 1) m p in
              exec n pe eof Again m p
            else Some m
        end
    end.
End Exec.

(** One round of the loop in [do_scan] — deckscanner.cpp:240-546: the text kept from before and the
    text read. *)
Definition round (bufsize fuel : nat) (kept input : list ascii) (m : mach) : option (mach * list ascii * list ascii * bool) :=
  let have := List.length kept in
  let space := (bufsize - have)%nat in
  let chunk := firstn space input in
  let len := List.length chunk in
  let buf := kept ++ chunk in
  let pe := (have + len)%nat in
  let eof := (len <? space)%nat in
  let start := if Nat.eqb have pe then exec buf fuel pe eof TestEof m have
               else if cs m =? 0 then Some m
               else exec buf fuel pe eof Resume m have in
  match start with
  | None => None
  | Some m' => Some (m', buf, skipn space input, eof)
  end.

(** [do_scan] — deckscanner.cpp:217-565 (the first argument is [BUFSIZE]).  The result: the
    tokens and whether "TOKENISER ERROR" was printed; [None]: not finished after [fuel] steps. *)
Fixpoint scan_loop (bufsize fuel : nat) (kept input : list ascii) (m : mach) : option (list token * bool) :=
  match fuel with
  | O => None
  | S n =>
      match round bufsize n kept input m with
      | None => None
      | Some (m', buf, input', eof) =>
          if cs m' =? 0 then Some (toks m', true)
          else
            let (kept', m'') :=
              match ts m' with
              | None => ([], m')
              | Some t => (skipn t buf, mkM (cs m') (Some 0%nat) (te m' - t) (act m') (line m') (toks m'))
              end in
            if eof then Some (toks m'', false) else scan_loop bufsize n kept' input' m''
      end
  end.

Definition deck_start : mach := mkM 10 None 0 0 1 [].
Definition do_scan (bufsize fuel : nat) (input : list ascii) : option (list token * bool) :=
  scan_loop bufsize fuel [] input deck_start.
(** [#define BUFSIZE 128] — deckscanner.cpp:214. *)
Definition BUFSIZE : nat := 128.
Definition scan (fuel : nat) (input : list ascii) : option (list token * bool) := do_scan BUFSIZE fuel input.
