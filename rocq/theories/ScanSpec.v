(** What the scanner of an input deck should do, independent of the generated tables: regular
    expressions for the tokens (as in parser/deckscanner.rl:19-96), longest match with the first
    rule winning ties, and the division of a text into tokens, blanks and comments. *)
From Coq Require Import ZArith NArith List Bool Ascii String.
From Verif Require Import ScanModel.
Import ListNotations.
Local Open Scope Z_scope.
Local Open Scope list_scope.

(** ** Regular expressions *)
Definition code (c : ascii) : N := N_of_ascii c.
Definition in_set (l : list (N * N)) (c : ascii) : bool :=
  existsb (fun r => (fst r <=? code c)%N && (code c <=? snd r)%N) l.

Inductive regex :=
| RNone
| REps
| RSet (l : list (N * N))       (* one character of the set *)
| RBut (l : list (N * N))       (* one character not of the set *)
| RSeq (a b : regex)
| RAlt (a b : regex)
| RStar (a : regex).

Inductive matches : regex -> list ascii -> Prop :=
| m_eps : matches REps []
| m_set l c : in_set l c = true -> matches (RSet l) [c]
| m_but l c : in_set l c = false -> matches (RBut l) [c]
| m_seq a b u v : matches a u -> matches b v -> matches (RSeq a b) (u ++ v)
| m_alt_l a b u : matches a u -> matches (RAlt a b) u
| m_alt_r a b u : matches b u -> matches (RAlt a b) u
| m_star_nil a : matches (RStar a) []
| m_star_cons a u v : matches a u -> matches (RStar a) v -> matches (RStar a) (u ++ v).

Definition ch (c : ascii) : N * N := (code c, code c).
Definition one (c : ascii) : regex := RSet [ch c].
Fixpoint lit (s : string) : regex :=
  match s with
  | EmptyString => REps
  | String c EmptyString => one c
  | String c s' => RSeq (one c) (lit s')
  end.
Definition opt (r : regex) : regex := RAlt r REps.
Definition plus (r : regex) : regex := RSeq r (RStar r).

(** ** The tokens — deckscanner.rl:25-94 *)
Inductive kind :=
| Sym (c : Z)         (* a token without text: a symbol or a keyword *)
| Word (c : Z)        (* a token whose text is the lexeme *)
| Quoted              (* a string; its text is the lexeme without the quotes *)
| Blank               (* no token *)
| OpenComment.        (* the start of a block comment *)

Definition any := RBut [].
Definition newline := "010"%char.
Definition quote := "'"%char.
Definition dquote := """"%char.
Definition bslash := "\"%char.
Definition alpha_set := [(65, 90); (97, 122); (95, 95)]%N.
Definition digit_set := [(48, 57)]%N.
Definition alpha_u := RSet alpha_set.
Definition alnum_u := RSet (alpha_set ++ digit_set).
Definition alnum_uc := RSet (alpha_set ++ digit_set ++ [ch ":"]).
Definition digit := RSet digit_set.
Definition string_body (q : ascii) := RAlt (RBut [ch q; ch bslash]) (RSeq (one bslash) any).
Definition float_exp := RSeq (RSet [ch "e"; ch "E"]) (RSeq (opt (RSet [ch "+"; ch "-"])) (plus digit)).
Definition float_dec := RSeq (one ".") (RSeq (RStar digit) (opt float_exp)).

Definition rules : list (kind * regex) :=
  [ (Sym EQUAL, lit "="); (Sym LBRACE, lit "{"); (Sym RBRACE, lit "}"); (Sym LBRACKET, lit "(");
    (Sym RBRACKET, lit ")"); (Sym SEMICOLON, lit ";"); (Sym COMMA, lit ",");
    (Sym PLUS, lit "+"); (Sym MINUS, lit "-"); (Sym TIMES, lit "*"); (Sym DIVIDE, lit "/"); (Sym EXPONENT, lit "^");
    (Sym INT_DECL, lit "int"); (Sym INT_DECL, lit "integer");
    (Sym FLOAT_DECL, lit "float"); (Sym FLOAT_DECL, lit "double"); (Sym FLOAT_DECL, lit "real");
    (Sym STRING_DECL, lit "string");
    (Word IDENTIFIER, RSeq alpha_u (RStar alnum_u));
    (* path identifiers, which the token list turns into identifiers *)
    (Word IDENTIFIER, RSeq alpha_u (RStar alnum_uc));
    (Quoted, RSeq (one quote) (RSeq (RStar (string_body quote)) (one quote)));
    (Quoted, RSeq (one dquote) (RSeq (RStar (string_body dquote)) (one dquote)));
    (Blank, RBut [(33, 126)]%N);
    (Blank, RSeq (lit "//") (RSeq (RStar (RBut [ch newline])) (one newline)));
    (OpenComment, lit "/*");
    (Word INTEGER, plus digit);
    (Word FLOAT, RSeq (RStar digit) (RAlt float_dec float_exp)) ].

Definition is_lexeme (w : list ascii) : Prop := exists k r, In (k, r) rules /\ matches r w.

(** [w] is a lexeme and [k] is its kind according to the first rule that it matches. *)
Definition best (w : list ascii) (k : kind) : Prop :=
  exists before r after,
    rules = before ++ (k, r) :: after /\ matches r w /\ Forall (fun x => ~ matches (snd x) w) before.

(** [w] is the longest non-empty prefix of [s] that is a lexeme; its kind is [k]. *)
Definition longest (s w : list ascii) (k : kind) : Prop :=
  w <> [] /\ best w k
  /\ (exists r, s = w ++ r)
  /\ (forall w' r', s = w' ++ r' -> (List.length w < List.length w')%nat -> ~ is_lexeme w').

(** [s] could still become a longer lexeme. *)
Definition unfinished (s : list ascii) : Prop := exists v, v <> [] /\ is_lexeme (s ++ v).

(** No non-empty prefix of [s] is a lexeme. *)
Definition stuck (s : list ascii) : Prop := forall w r, s = w ++ r -> w <> [] -> ~ is_lexeme w.

(** ** The division of a text *)
Definition close : list ascii := ["*"; "/"]%char.
Definition no_close (b : list ascii) : Prop := forall x y, b <> x ++ close ++ y.

Inductive segment :=
| Lexeme (k : kind) (w : list ascii)
| Comment (w b : list ascii).          (* [w] is the opening, [b] the text *)

Definition segment_text (x : segment) : list ascii :=
  match x with Lexeme _ w => w | Comment w b => w ++ b ++ close end.

(** How the scan ends. *)
Inductive outcome :=
| Complete                        (* at the end of the text *)
| Unclosed (r : list ascii)       (* [r] is a comment that is not closed *)
| Unfinished (r : list ascii)     (* [r] is the start of a string that is not closed *)
| Illegal (r : list ascii).       (* [r] does not start with any token *)
Definition remainder (o : outcome) : list ascii :=
  match o with Complete => [] | Unclosed r | Unfinished r | Illegal r => r end.
(** Only illegal text is reported. *)
Definition reported (o : outcome) : bool := match o with Illegal _ => true | _ => false end.

Inductive segments : list ascii -> list segment -> outcome -> Prop :=
| seg_end : segments [] [] Complete
| seg_lexeme w r k l o :
    longest (w ++ r) w k -> k <> OpenComment -> segments r l o ->
    segments (w ++ r) (Lexeme k w :: l) o
| seg_comment w b r l o :
    longest (w ++ b ++ close ++ r) w OpenComment -> no_close b -> segments r l o ->
    segments (w ++ b ++ close ++ r) (Comment w b :: l) o
| seg_unclosed w b :
    longest (w ++ b) w OpenComment -> no_close b -> segments (w ++ b) [] (Unclosed (w ++ b))
| seg_unfinished s : s <> [] -> stuck s -> unfinished s -> segments s [] (Unfinished s)
| seg_illegal s : s <> [] -> stuck s -> ~ unfinished s -> segments s [] (Illegal s).

(** The tokens of a list of segments.  The line of a token is the line in which it ends. *)
Definition newlines (w : list ascii) : Z :=
  Z.of_nat (List.length (filter (fun c => if ascii_dec c newline then true else false) w)).
Definition middle (w : list ascii) : list ascii := removelast (tl w).
Definition token_of (k : kind) (line : Z) (w : list ascii) : list token :=
  match k with
  | Sym c => [mkTok line c []]
  | Word c => [mkTok line c w]
  | Quoted => [mkTok line STRING (middle w)]
  | Blank | OpenComment => []
  end.
Fixpoint tokens_of (line : Z) (l : list segment) : list token :=
  match l with
  | [] => []
  | x :: l' =>
      let line' := line + newlines (segment_text x) in
      match x with
      | Lexeme k w => token_of k line' w ++ tokens_of line' l'
      | Comment _ _ => tokens_of line' l'
      end
  end.

(** ** What fits the buffer *)

(** [r] is what is left of [s] after some of its tokens, blanks and comments. *)
Inductive reaches : list ascii -> list ascii -> Prop :=
| reach_here s : reaches s s
| reach_lexeme w r k r' :
    longest (w ++ r) w k -> k <> OpenComment -> reaches r r' -> reaches (w ++ r) r'
| reach_comment w b r r' :
    longest (w ++ b ++ close ++ r) w OpenComment -> no_close b -> reaches r r' ->
    reaches (w ++ b ++ close ++ r) r'.

(** No token, or piece of text that might yet become a token, fills a buffer of [size]
    characters. *)
Definition fits (size : nat) (s : list ascii) : Prop :=
  forall r u r', reaches s r -> r = u ++ r' -> List.length u = size -> ~ unfinished u.

(** ** Comments, blanks and names *)
Definition texts (l : list segment) : list ascii := List.concat (map segment_text l).
(** A comment of either kind, or a blank. *)
Definition silent (x : segment) : Prop := match x with Comment _ _ => True | Lexeme k _ => k = Blank end.
(** Space, newline and everything else that is not a printable character. *)
Definition blank_char (c : ascii) : Prop := in_set [(33, 126)]%N c = false.

Definition is_letter (c : ascii) : Prop := in_set [(65, 90); (97, 122); (95, 95)]%N c = true.
Definition is_alnum (c : ascii) : Prop := in_set [(65, 90); (97, 122); (95, 95); (48, 57)]%N c = true.
Definition is_name (w : list ascii) : Prop := exists c v, w = c :: v /\ is_letter c /\ Forall is_alnum v.
Definition op_chars := ["+"; "-"; "*"; "/"; "^"; "="; ";"; ","; "("; ")"; "{"; "}"]%char.
