(** The tables of the scanner agree with the rules: an exhaustive comparison, state by state and
    character by character, of the transitions with the derivatives of the rules. *)
From Coq Require Import ZArith NArith List Bool Ascii String Lia.
From Verif Require Import ScanModel ScanSpec ScanRegexProofs.
Import ListNotations.
Local Open Scope Z_scope.
Local Open Scope list_scope.

(** A text that leads to each state. *)
Definition access (q : Z) : list ascii :=
  let s := list_ascii_of_string in
  match q with
  | 1 => [dquote] | 2 => [dquote; bslash] | 3 => [quote] | 4 => [quote; bslash]
  | 5 => s "1e" | 6 => s "1e+" | 7 => s "//" | 11 => s "." | 12 => s "1e1" | 13 => s "/" | 14 => s "1"
  | 15 => s "x" | 16 => s "x:" | 17 => s "e" | 18 => s "e1"
  | 19 => s "d" | 20 => s "do" | 21 => s "dou" | 22 => s "doub" | 23 => s "doubl"
  | 24 => s "f" | 25 => s "fl" | 26 => s "flo" | 27 => s "floa"
  | 28 => s "i" | 29 => s "in" | 30 => s "int" | 31 => s "inte" | 32 => s "integ" | 33 => s "intege"
  | 34 => s "r" | 35 => s "re" | 36 => s "rea"
  | 37 => s "s" | 38 => s "st" | 39 => s "str" | 40 => s "stri" | 41 => s "strin"
  | _ => []
  end%string.
(** A continuation that completes a token. *)
Definition finish (q : Z) : list ascii :=
  match q with
  | 1 => [dquote] | 2 => [dquote; dquote] | 3 => [quote] | 4 => [quote; quote]
  | 5 | 6 => ["1"%char] | 7 => [newline] | 13 => ["*"%char] | _ => ["1"%char]
  end.

Definition zmem (q : Z) (l : list Z) : bool := existsb (Z.eqb q) l.
Definition inner : list Z := [1;2;3;4;5;6;7] ++ map Z.of_nat (seq 11 31).
Definition te_tracked (q : Z) : bool := zmem q [5;6;7;11;13;14;15;17].
Definition act_tracked (q : Z) : bool := zmem q [5;6;11;14;15;17].
Definition divide_state (q : Z) : bool := zmem q [7;13].
Definition no_match (q : Z) : bool := zmem q [1;2;3;4].

Definition now_kind (a : Z) : option kind :=
  match a with
  | 13 => Some (Sym EQUAL) | 14 => Some (Sym LBRACE) | 15 => Some (Sym RBRACE) | 16 => Some (Sym LBRACKET)
  | 17 => Some (Sym RBRACKET) | 18 => Some (Sym SEMICOLON) | 19 => Some (Sym COMMA) | 20 => Some (Sym PLUS)
  | 21 => Some (Sym MINUS) | 22 => Some (Sym TIMES) | 23 => Some (Sym EXPONENT)
  | 24 | 25 => Some Quoted | 26 | 27 => Some Blank | _ => None
  end.
Definition prev_kind (a : Z) : option kind :=
  match a with
  | 29 => Some (Sym DIVIDE) | 30 => Some (Sym INT_DECL) | 31 | 32 => Some (Word IDENTIFIER)
  | 33 => Some (Word INTEGER) | 34 => Some (Word FLOAT) | _ => None
  end.
Definition act_kind (a : Z) : option kind :=
  match a with
  | 14 => Some (Sym INT_DECL) | 15 | 16 | 17 => Some (Sym FLOAT_DECL) | 18 => Some (Sym STRING_DECL)
  | 19 => Some (Word IDENTIFIER) | 26 => Some (Word INTEGER) | 27 => Some (Word FLOAT) | _ => None
  end.
(** What actions 5 to 12 store in [act]. *)
Definition act_of (a : Z) : Z :=
  match a with 5 => 14 | 6 => 15 | 7 => 16 | 8 => 17 | 9 => 18 | 10 => 19 | 11 => 26 | 12 => 27 | _ => 0 end.

(** The kinds of transitions. *)
Inductive class :=
| Cont (nl te : bool) (a : option Z) (q : Z)   (* read on *)
| Now (nl : bool) (a : Z)                      (* a token that ends here *)
| Opens                                        (* a block comment starts *)
| Prev (a : Z)                                 (* a token that ended before this character *)
| Back (a : Z)                                 (* a token that ended at [te] *)
| Err.

Definition encode (cl : class) : Z * list Z :=
  let nls (b : bool) := if b then [0] else [] in
  match cl with
  | Cont nl te a q => (q, nls nl ++ (if te then [4] else []) ++ (match a with Some x => [x] | None => [] end))
  | Now nl a => (10, nls nl ++ [a])
  | Opens => (10, [28])
  | Prev a | Back a => (10, [a])
  | Err => (0, [])
  end.
(** A guess; [encode] tells whether it is right. *)
Definition decode (x : Z * list Z) : class :=
  let (q, l) := x in
  let nl := zmem 0 l in
  let l' := filter (fun a => negb (a =? 0)) l in
  if q =? 0 then Err
  else if q =? 10 then
    match l' with
    | [a] => if a =? 28 then Opens else if a <? 28 then Now nl a else if a <? 35 then Prev a else Back a
    | _ => Err
    end
  else match l' with
       | [] => Cont nl false None q
       | [_] => Cont nl true None q
       | _ :: a :: _ => Cont nl true (Some a) q
       end.

Definition targ (t : Z) : Z := tbl deck_trans_targs t.
Definition acts (t : Z) : list Z := action_list (tbl deck_trans_actions t).
Definition summary (t : Z) : Z * list Z := (targ t, acts t).

Definition summary_eqb (a b : Z * list Z) : bool :=
  (fst a =? fst b) && (if list_eq_dec Z.eq_dec (snd a) (snd b) then true else false).
Definition vec_dec (a b : vec) : {a = b} + {a <> b}.
Proof. apply list_eq_dec. intros [k r] [k' r']. destruct (kind_dec k k'), (regex_dec r r'); subst; [left; reflexivity | right; congruence ..]. Defined.
Definition vec_eqb (a b : vec) : bool := if vec_dec a b then true else false.
Definition okind_eqb (a b : option kind) : bool :=
  match a, b with
  | Some x, Some y => if kind_dec x y then true else false
  | None, None => true
  | _, _ => false
  end.
Definition is_nl (c : ascii) : bool := if ascii_dec c newline then true else false.
Definition impb (a b : bool) : bool := negb a || b.
Definition is_some {A} (x : option A) : bool := match x with Some _ => true | None => false end.

Definition state_vec (q : Z) : vec := ders (access q).

(** What a transition on character [c] from state [q] (10 or an inner state) must satisfy. *)
Definition check_class (q : Z) (c : ascii) (cl : class) : bool :=
  let v' := step_vec c (state_vec q) in
  match cl with
  | Cont nl ste a q' =>
      zmem q' inner && vec_eqb (strip_vec v') (strip_vec (state_vec q')) && ((q' =? 15) || vec_eqb v' (state_vec q'))
      && Bool.eqb nl (is_nl c)
      && match a with Some x => ste && zmem x [5;6;7;8;9;10;11;12] | None => true end
      && match accept v' with
         | Some k =>
             negb (no_match q') && impb (te_tracked q') ste
             && impb (act_tracked q') (match a with Some x => okind_eqb (act_kind (act_of x)) (Some k) | None => false end)
             && impb (divide_state q') (okind_eqb (Some k) (Some (Sym DIVIDE)))
         | None =>
             negb ste && impb (te_tracked q') (negb nl)
             && impb (negb (no_match q')) (te_tracked q' && te_tracked q && impb (act_tracked q') (act_tracked q)
                                           && impb (divide_state q') (divide_state q))
             && impb (no_match q') (no_match q || (q =? 10)) && negb (no_match q' && te_tracked q')
         end
  | Now nl a => is_some (now_kind a) && okind_eqb (accept v') (now_kind a) && dead (strip_vec v') && Bool.eqb nl (is_nl c)
  | Opens => okind_eqb (accept v') (Some OpenComment) && dead (strip_vec v') && negb (is_nl c)
  | Prev a => dead v' && negb (q =? 15) && negb (q =? 10) && is_some (prev_kind a) && okind_eqb (accept (state_vec q)) (prev_kind a)
  | Back a => dead v' && te_tracked q && (((a =? 35) && divide_state q) || ((a =? 36) && act_tracked q))
  | Err => dead v' && (no_match q || (q =? 10))
  end.
Definition check_trans (q : Z) (c : ascii) : bool :=
  let s := summary (find_trans q c) in
  summary_eqb (encode (decode s)) s && check_class q c (decode s).

Definition check_eof (q : Z) : bool :=
  let e := tbl deck_eof_trans q in
  if e >? 0 then
    let s := summary (e - 1) in
    summary_eqb (encode (decode s)) s &&
    match decode s with
    | Prev a => negb (q =? 15) && is_some (prev_kind a) && okind_eqb (accept (state_vec q)) (prev_kind a)
    | Back a => te_tracked q && (((a =? 35) && divide_state q) || ((a =? 36) && act_tracked q))
    | _ => false
    end
  else no_match q.

Definition check_finish (q : Z) : bool := is_some (accept (ders_from (state_vec q) (finish q))).

(** A state that neither tracks [te] nor is without a match is accepting. *)
Definition check_static (q : Z) : bool := te_tracked q || no_match q || is_some (accept (state_vec q)).

Definition all_chars : list ascii := map ascii_of_N (map N.of_nat (seq 0 256)).
Lemma all_chars_in : forall c, In c all_chars.
Proof.
  intros c. unfold all_chars. rewrite <- (ascii_N_embedding c). apply in_map.
  assert (H : (N_of_ascii c < 256)%N) by (destruct c as [[] [] [] [] [] [] [] []]; reflexivity).
  rewrite <- (N2Nat.id (N_of_ascii c)). apply in_map. apply in_seq. lia.
Qed.

Definition comment_target (q : Z) (c : ascii) : Z * list Z :=
  if ascii_dec c newline then (8, [0])
  else if ascii_dec c "*" then (9, [])
  else if (q =? 9) && (if ascii_dec c "/" then true else false) then (42, [1])
  else (8, []).

Lemma table_main : forallb (fun q => forallb (check_trans q) all_chars) (10 :: inner) = true.
Proof. vm_compute. reflexivity. Qed.
Lemma table_eof : forallb check_eof inner = true.
Proof. vm_compute. reflexivity. Qed.
Lemma table_finish : forallb check_finish inner = true.
Proof. vm_compute. reflexivity. Qed.
Lemma table_static : forallb check_static inner = true.
Proof. vm_compute. reflexivity. Qed.
Lemma table_comment : forallb (fun q => forallb (fun c => summary_eqb (summary (find_trans q c)) (comment_target q c)) all_chars) [8; 9] = true.
Proof. vm_compute. reflexivity. Qed.
Lemma table_from : forallb (fun q => if list_eq_dec Z.eq_dec (action_list (tbl deck_from_state_actions q)) (if q =? 10 then [3] else []) then true else false) ([0; 8; 9; 10] ++ inner) = true.
Proof. vm_compute. reflexivity. Qed.
Lemma table_to : forallb (fun q => if list_eq_dec Z.eq_dec (action_list (tbl deck_to_state_actions q)) (if (q =? 10) || (q =? 8) then [2] else []) then true else false) ([0; 8; 9; 10] ++ inner) = true.
Proof. vm_compute. reflexivity. Qed.
