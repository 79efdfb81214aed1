(** Cases that meet the hypotheses of the theorems on the scanner, and the texts that show where
    the full statements fail. *)
From Coq Require Import ZArith NArith List Bool Ascii String Lia.
From Verif Require Import ScanModel ScanSpec ScanRegexProofs ScanTableProofs ScanProofs ScanLoopProofs ScanCommentProofs.
Import ListNotations.
Local Open Scope Z_scope.
Local Open Scope list_scope.

Definition txt (s : string) : list ascii := list_ascii_of_string s.
Definition nl : string := String newline EmptyString.

(** A deck with all kinds of tokens, scanned with buffers of 24 and of 128 characters. *)
Definition sx_deck : list ascii :=
  txt ("int N = 3; // the size" ++ nl ++ "real x = 2.5e-3*(N + 1)^2 / a:b; /* two" ++ nl ++ "lines */ Block b { s = 'it' ; }")%string.
Definition sx_tokens : list token :=
  [mkTok 1 INT_DECL []; mkTok 1 IDENTIFIER (txt "N"); mkTok 1 EQUAL []; mkTok 1 INTEGER (txt "3"); mkTok 1 SEMICOLON [];
   mkTok 2 FLOAT_DECL []; mkTok 2 IDENTIFIER (txt "x"); mkTok 2 EQUAL []; mkTok 2 FLOAT (txt "2.5e-3"); mkTok 2 TIMES [];
   mkTok 2 LBRACKET []; mkTok 2 IDENTIFIER (txt "N"); mkTok 2 PLUS []; mkTok 2 INTEGER (txt "1"); mkTok 2 RBRACKET [];
   mkTok 2 EXPONENT []; mkTok 2 INTEGER (txt "2"); mkTok 2 DIVIDE []; mkTok 2 IDENTIFIER (txt "a:b"); mkTok 2 SEMICOLON [];
   mkTok 3 IDENTIFIER (txt "Block"); mkTok 3 IDENTIFIER (txt "b"); mkTok 3 LBRACE []; mkTok 3 IDENTIFIER (txt "s");
   mkTok 3 EQUAL []; mkTok 3 STRING (txt "it"); mkTok 3 SEMICOLON []; mkTok 3 RBRACE []].
Example sx_scan : scan 500 sx_deck = Some (sx_tokens, false) /\ do_scan 24 500 sx_deck = Some (sx_tokens, false).
Proof. split; vm_compute; reflexivity. Qed.
Example sx_fits : fits 24 sx_deck.
Proof. apply do_scan_fits; [lia |]. exists 500%nat, (sx_tokens, false). apply sx_scan. Qed.
(** ** Where the full statements fail *)
Lemma long_name_hangs : forall fuel, scan fuel (repeat "a"%char 128) = None.
Proof.
  intros fuel. destruct (scan fuel (repeat "a"%char 128)) as [r|] eqn:E; [exfalso | reflexivity].
  assert (F : fits BUFSIZE (repeat "a"%char 128)) by (apply do_scan_fits; [unfold BUFSIZE; lia | eauto]).
  apply (F _ (repeat "a"%char 128) [] (reach_here _)); [rewrite app_nil_r; reflexivity | reflexivity |].
  exists ["a"%char]. split; [discriminate |]. apply (best_lexeme _ (Word IDENTIFIER)). apply accept_some. vm_compute. reflexivity.
Qed.
Lemma long_comment_hangs : forall fuel, scan fuel (txt "// " ++ repeat "x"%char 130 ++ [newline]) = None.
Proof.
  intros fuel. destruct (scan fuel _) as [r|] eqn:E; [exfalso | reflexivity].
  assert (F : fits BUFSIZE (txt "// " ++ repeat "x"%char 130 ++ [newline])) by (apply do_scan_fits; [unfold BUFSIZE; lia | eauto]).
  apply (F _ (txt "// " ++ repeat "x"%char 125) (repeat "x"%char 5 ++ [newline]) (reach_here _)); [reflexivity | reflexivity |].
  exists [newline]. split; [discriminate |]. apply (best_lexeme _ Blank). apply accept_some. vm_compute. reflexivity.
Qed.

(** Text after a character that starts no token, after an opening comment mark or after a single
    quote is dropped. *)
Lemma illegal_dropped :
  exists tk, scan 100 (txt "a = 1; # b = 2;") = Some (tk, true) /\ scan 100 (txt "a = 1; ") = Some (tk, false) /\ tk <> [].
Proof. eexists. split; [vm_compute; reflexivity |]. split; [vm_compute; reflexivity | discriminate]. Qed.
Lemma unclosed_comment_dropped :
  exists tk, scan 100 (txt "a = 1; /* b = 2;") = Some (tk, false) /\ scan 100 (txt "a = 1; ") = Some (tk, false) /\ tk <> [].
Proof. eexists. split; [vm_compute; reflexivity |]. split; [vm_compute; reflexivity | discriminate]. Qed.
Lemma unclosed_string_dropped :
  exists tk, scan 100 (txt "a = 1; 'b = 2;") = Some (tk, false) /\ scan 100 (txt "a = 1; ") = Some (tk, false) /\ tk <> [].
Proof. eexists. split; [vm_compute; reflexivity |]. split; [vm_compute; reflexivity | discriminate]. Qed.

(** A line comment at the end of a text without a final newline is not a comment. *)
Lemma last_line_comment :
  scan 100 (txt "a; // b") = Some ([mkTok 1 IDENTIFIER (txt "a"); mkTok 1 SEMICOLON []; mkTok 1 DIVIDE []; mkTok 1 DIVIDE []; mkTok 1 IDENTIFIER (txt "b")], false)
  /\ scan 100 (txt "a; " ++ [newline]) = Some ([mkTok 1 IDENTIFIER (txt "a"); mkTok 1 SEMICOLON []], false).
Proof. split; vm_compute; reflexivity. Qed.

(** The name [e] before a sign and a digit is read as a number. *)
Lemma name_e_glued :
  scan 100 (txt "e-1") = Some ([mkTok 1 FLOAT (txt "e-1")], false)
  /\ scan 100 (txt "a-1") = Some ([mkTok 1 IDENTIFIER (txt "a"); mkTok 1 MINUS []; mkTok 1 INTEGER (txt "1")], false).
Proof. split; vm_compute; reflexivity. Qed.

(** A point alone is a number. *)
Example point_is_a_number : scan 100 (txt ".") = Some ([mkTok 1 FLOAT (txt ".")], false).
Proof. vm_compute. reflexivity. Qed.

(** ** Hypotheses *)
Example name_example : is_name (txt "x_1") /\ txt "x_1" <> ["e"%char] /\ txt "x_1" <> ["E"%char] /\ In "-"%char op_chars.
Proof.
  split; [exists "x"%char, (txt "_1"); split; [reflexivity | split; [reflexivity | repeat constructor]] |].
  split; [discriminate | split; [discriminate | simpl; tauto]].
Qed.

(** A text that starts with a comment of two lines. *)
Definition sx_comment : list ascii := txt ("a/* two" ++ nl ++ "lines */b")%string.
Example comment_example : segments sx_comment
    ([Lexeme (Word IDENTIFIER) (txt "a")] ++ Comment (txt "/*") (txt (" two" ++ nl ++ "lines ")%string) :: [Lexeme (Word IDENTIFIER) (txt "b")]) Complete
  /\ blank_char newline /\ newlines [newline] = newlines (txt ("/* two" ++ nl ++ "lines */")%string).
Proof.
  split; [| split; [reflexivity | vm_compute; reflexivity]].
  assert (LX : forall w rest k, accept (ders w) = Some k -> w <> [] -> (rest = [] \/ exists v, rest = v :: tl rest /\ dead (ders (w ++ [v])) = true) -> longest (w ++ rest) w k).
  { intros w rest k A N [-> | (v & E & D)]; [rewrite app_nil_r; apply longest_self; [assumption | apply accept_some; assumption] |].
    rewrite E. apply longest_ext; [apply longest_self; [assumption | apply accept_some; assumption] |]. apply (dead_ext w v (tl rest) D). }
  change sx_comment with (txt "a" ++ txt "/*" ++ txt (" two" ++ nl ++ "lines ")%string ++ close ++ txt "b").
  apply seg_lexeme; [apply LX; [vm_compute; reflexivity | discriminate | right; exists "/"%char; split; [reflexivity | vm_compute; reflexivity]] | discriminate |].
  apply seg_comment; [apply LX; [vm_compute; reflexivity | discriminate | right; exists " "%char; split; [reflexivity | vm_compute; reflexivity]] | |].
  - intros x y. assert (H : forallb (fun n => negb (if list_eq_dec ascii_dec (firstn 2 (skipn n (txt (" two" ++ nl ++ "lines ")%string))) close then true else false)) (seq 0 12) = true) by (vm_compute; reflexivity).
    intros E. rewrite forallb_forall in H.
    assert (Lx : (List.length x < 12)%nat).
    { apply (f_equal (@List.length _)) in E. rewrite !app_length in E. change (List.length (txt (" two" ++ nl ++ "lines ")%string)) with 11%nat in E. lia. }
    specialize (H (List.length x) ltac:(apply in_seq; lia)). rewrite E in H. rewrite skipn_app, skipn_all, Nat.sub_diag in H. simpl in H. discriminate.
  - change (txt "b") with (txt "b" ++ []). apply seg_lexeme; [apply LX; [vm_compute; reflexivity | discriminate | left; reflexivity] | discriminate | constructor].
Qed.
