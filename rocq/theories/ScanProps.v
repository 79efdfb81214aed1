(** Properties of the scanner for input decks. *)
From Coq Require Import ZArith NArith List Bool Ascii String.
From Verif Require Import ScanModel ScanSpec ScanLoopProofs ScanCommentProofs ScanExamples.
Import ListNotations.
Local Open Scope list_scope.

(** C36.  Whatever the size of the buffer, a scan that ends yields the tokens of the one division of
    the text into longest tokens, blanks and comments. *)
Theorem C36_scan :
  forall size fuel s tokens flag, 0 < size -> do_scan size fuel s = Some (tokens, flag) ->
  exists l o, segments s l o /\ tokens = tokens_of 1 l /\ flag = reported o.
Proof. exact do_scan_sound. Qed.
Print Assumptions C36_scan.

Theorem C36_division_unique :
  forall s, exists l o, segments s l o /\ forall l' o', segments s l' o' -> l' = l /\ o' = o.
Proof. exact division_unique. Qed.
Print Assumptions C36_division_unique.

Theorem C36_buffer_independent :
  forall size1 size2 fuel1 fuel2 s r1 r2, 0 < size1 -> 0 < size2 ->
  do_scan size1 fuel1 s = Some r1 -> do_scan size2 fuel2 s = Some r2 -> r1 = r2.
Proof. exact buffer_independent. Qed.
Print Assumptions C36_buffer_independent.

(** C37.  The scan ends if and only if no token, line comment or start of a token fills the
    buffer. *)
Theorem C37_terminates_partial :
  forall size s, 0 < size -> (exists fuel r, do_scan size fuel s = Some r) <-> fits size s.
Proof. exact do_scan_fits. Qed.
Print Assumptions C37_terminates_partial.

Theorem C37_long_name_refuted : forall fuel, scan fuel (repeat "a"%char 128) = None.
Proof. exact long_name_hangs. Qed.
Print Assumptions C37_long_name_refuted.

Theorem C37_long_line_comment_refuted : forall fuel, scan fuel (txt "// " ++ repeat "x"%char 130 ++ [newline]) = None.
Proof. exact long_comment_hangs. Qed.
Print Assumptions C37_long_line_comment_refuted.

(** C38.  The whole text is accounted for by the tokens, blanks and comments and what is left at
    the end, which is empty unless it is an unclosed comment or string, or illegal text. *)
Theorem C38_nothing_ignored_partial :
  forall size fuel s tokens flag, 0 < size -> do_scan size fuel s = Some (tokens, flag) ->
  exists l o, segments s l o /\ tokens = tokens_of 1 l /\ s = texts l ++ remainder o
    /\ (flag = true <-> exists r, o = Illegal r).
Proof. exact nothing_ignored. Qed.
Print Assumptions C38_nothing_ignored_partial.

Theorem C38_unclosed_comment_refuted :
  exists tokens, scan 100 (txt "a = 1; /* b = 2;") = Some (tokens, false) /\ scan 100 (txt "a = 1; ") = Some (tokens, false) /\ tokens <> [].
Proof. exact unclosed_comment_dropped. Qed.
Print Assumptions C38_unclosed_comment_refuted.
Theorem C38_unclosed_string_refuted :
  exists tokens, scan 100 (txt "a = 1; 'b = 2;") = Some (tokens, false) /\ scan 100 (txt "a = 1; ") = Some (tokens, false) /\ tokens <> [].
Proof. exact unclosed_string_dropped. Qed.
Print Assumptions C38_unclosed_string_refuted.
Theorem C38_illegal_text_refuted :
  exists tokens, scan 100 (txt "a = 1; # b = 2;") = Some (tokens, true) /\ scan 100 (txt "a = 1; ") = Some (tokens, false) /\ tokens <> [].
Proof. exact illegal_dropped. Qed.
Print Assumptions C38_illegal_text_refuted.

(** C39.  A comment may be replaced by any blank text with as many newlines; the tokens and their
    lines stay the same. *)
Theorem C39_comments_partial :
  forall size size' fuel fuel' before x after o s blank r r', 0 < size -> 0 < size' ->
  segments s (before ++ x :: after) o -> silent x ->
  blank <> [] -> Forall blank_char blank -> newlines blank = newlines (segment_text x) ->
  do_scan size fuel s = Some r ->
  do_scan size' fuel' (texts before ++ blank ++ texts after ++ remainder o) = Some r' ->
  r = r'.
Proof. exact comments_no_effect. Qed.
Print Assumptions C39_comments_partial.

Theorem C39_last_line_comment_refuted :
  scan 100 (txt "a; // b") = Some ([mkTok 1 IDENTIFIER (txt "a"); mkTok 1 SEMICOLON []; mkTok 1 DIVIDE []; mkTok 1 DIVIDE []; mkTok 1 IDENTIFIER (txt "b")], false)
  /\ scan 100 (txt "a; " ++ [newline]) = Some ([mkTok 1 IDENTIFIER (txt "a"); mkTok 1 SEMICOLON []], false).
Proof. exact last_line_comment. Qed.
Print Assumptions C39_last_line_comment_refuted.

(** C71.  A name that is followed by an operator is a token of its own, unless the name is [e] or
    [E]. *)
Theorem C71_name_operator_partial :
  forall w c s, is_name w -> w <> ["e"%char] -> w <> ["E"%char] -> In c op_chars -> exists k, longest (w ++ c :: s) w k.
Proof. exact name_operator. Qed.
Print Assumptions C71_name_operator_partial.

Theorem C71_name_e_refuted :
  scan 100 (txt "e-1") = Some ([mkTok 1 FLOAT (txt "e-1")], false)
  /\ scan 100 (txt "a-1") = Some ([mkTok 1 IDENTIFIER (txt "a"); mkTok 1 MINUS []; mkTok 1 INTEGER (txt "1")], false).
Proof. exact name_e_glued. Qed.
Print Assumptions C71_name_e_refuted.
