(** The tables of the parser implement the grammar: a table of LR items is checked against the
    grammar and against the tables by computation, and the facts the proofs need are derived from
    the checks. *)
From Coq Require Import ZArith List Bool Lia.
From Verif Require Import ParseModel ParseSpec.
Import ListNotations.
Local Open Scope Z_scope.

Definition ncode (A : nonterm) : Z :=
  match A with
  | Deck => 23 | StatementList => 24 | Statement => 25 | TypeDecl => 26 | DeclList => 27
  | Assignment => 28 | StartBlock => 29 | Declaration => 30 | Expression => 31 | SignedTerm => 32
  | UnsignedExpression => 33 | TermExpression => 34 | ExpExpression => 35 | AtomicExpression => 36
  | SignedAtomic => 37 | ExpressionList => 38 | Value => 39
  end.
Definition scode (X : sym) : Z := match X with T c => c | N A => ncode A end.
Definition nonterms : list nonterm :=
  [Deck; StatementList; Statement; TypeDecl; DeclList; Assignment; StartBlock; Declaration; Expression;
   SignedTerm; UnsignedExpression; TermExpression; ExpExpression; AtomicExpression; SignedAtomic;
   ExpressionList; Value].

(** Items: rule, position of the dot, tokens that may follow.  In every state an item with the
    dot in front comes after an item that has the dot before its left-hand side. *)
Definition la0 : list Z := [0].
Definition la1 : list Z := [0; 7; 9; 10; 19; 20; 21; 22].
Definition la2 : list Z := [6].
Definition la3 : list Z := [10; 22].
Definition la4 : list Z := [1; 2; 3; 4; 5; 6; 12; 15].
Definition la5 : list Z := [12; 15].
Definition la6 : list Z := [1; 2; 12; 15].
Definition la7 : list Z := [1; 2; 3; 4; 12; 15].
Definition la8 : list Z := [1; 2; 3; 4; 5; 12; 15].
Definition la9 : list Z := [6; 12].
Definition la10 : list Z := [1; 2; 6; 12].
Definition la11 : list Z := [1; 2; 3; 4; 6; 12].
Definition la12 : list Z := [1; 2; 3; 4; 5; 6; 12].
Definition la13 : list Z := [15].
Definition la14 : list Z := [1; 2; 15].
Definition la15 : list Z := [1; 2; 3; 4; 15].
Definition la16 : list Z := [1; 2; 3; 4; 5; 15].
Definition la17 : list Z := [6; 12; 15].
Definition la18 : list Z := [1; 2; 6; 12; 15].
Definition la19 : list Z := [1; 2; 3; 4; 6; 12; 15].
Definition cert : list (list (nat * nat * list Z)) :=
  [[(0,0,la0); (1,0,la1); (2,0,la1); (3,0,la1); (4,0,la1); (5,0,la1); (6,0,la1); (7,0,la1);
    (8,0,la1); (9,0,la1); (10,0,la1); (16,0,la2); (45,0,la3); (46,0,la3); (47,0,la3)];
   [(35,2,la4); (36,2,la4); (38,0,la5); (39,0,la5); (17,0,la5); (18,0,la5); (19,0,la5);
    (23,0,la6); (24,0,la6); (25,0,la6); (26,0,la6); (27,0,la6); (28,0,la6); (29,0,la7);
    (30,0,la7); (34,0,la8); (35,0,la8); (36,0,la8); (37,0,la8); (40,0,la8); (41,0,la8);
    (42,0,la8); (43,0,la8); (44,0,la8)];
   [(38,2,la5); (17,0,la5); (18,0,la5); (19,0,la5); (23,0,la6); (24,0,la6); (25,0,la6);
    (26,0,la6); (27,0,la6); (28,0,la6); (29,0,la7); (30,0,la7); (34,0,la8); (35,0,la8);
    (36,0,la8); (37,0,la8); (40,0,la8); (41,0,la8); (42,0,la8); (43,0,la8); (44,0,la8)];
   [(16,2,la9); (17,0,la9); (18,0,la9); (19,0,la9); (23,0,la10); (24,0,la10); (25,0,la10);
    (26,0,la10); (27,0,la10); (28,0,la10); (29,0,la11); (30,0,la11); (34,0,la12);
    (35,0,la12); (36,0,la12); (37,0,la12); (40,0,la12); (41,0,la12); (42,0,la12);
    (43,0,la12); (44,0,la12)];
   [(34,1,la4); (17,0,la13); (18,0,la13); (19,0,la13); (23,0,la14); (24,0,la14); (25,0,la14);
    (26,0,la14); (27,0,la14); (28,0,la14); (29,0,la15); (30,0,la15); (34,0,la16);
    (35,0,la16); (36,0,la16); (37,0,la16); (40,0,la16); (41,0,la16); (42,0,la16);
    (43,0,la16); (44,0,la16)];
   [(0,1,la0); (1,1,la1); (3,0,la1); (4,0,la1); (5,0,la1); (6,0,la1); (7,0,la1); (8,0,la1);
    (9,0,la1); (10,0,la1); (16,0,la2); (45,0,la3); (46,0,la3); (47,0,la3)];
   [(20,2,la17); (20,0,la17); (21,0,la17); (22,0,la17); (26,0,la18); (27,0,la18);
    (28,0,la18); (29,0,la19); (30,0,la19); (34,0,la4); (35,0,la4); (36,0,la4); (37,0,la4);
    (40,0,la4); (41,0,la4); (42,0,la4); (43,0,la4); (44,0,la4)];
   [(21,2,la17); (20,0,la17); (21,0,la17); (22,0,la17); (26,0,la18); (27,0,la18);
    (28,0,la18); (29,0,la19); (30,0,la19); (34,0,la4); (35,0,la4); (36,0,la4); (37,0,la4);
    (40,0,la4); (41,0,la4); (42,0,la4); (43,0,la4); (44,0,la4)];
   [(18,2,la17); (20,0,la17); (21,0,la17); (22,0,la17); (26,0,la18); (27,0,la18);
    (28,0,la18); (29,0,la19); (30,0,la19); (34,0,la4); (35,0,la4); (36,0,la4); (37,0,la4);
    (40,0,la4); (41,0,la4); (42,0,la4); (43,0,la4); (44,0,la4)];
   [(17,2,la17); (20,0,la17); (21,0,la17); (22,0,la17); (26,0,la18); (27,0,la18);
    (28,0,la18); (29,0,la19); (30,0,la19); (34,0,la4); (35,0,la4); (36,0,la4); (37,0,la4);
    (40,0,la4); (41,0,la4); (42,0,la4); (43,0,la4); (44,0,la4)];
   [(27,2,la18); (26,0,la18); (27,0,la18); (28,0,la18); (29,0,la19); (30,0,la19); (34,0,la4);
    (35,0,la4); (36,0,la4); (37,0,la4); (40,0,la4); (41,0,la4); (42,0,la4); (43,0,la4);
    (44,0,la4)];
   [(26,2,la18); (26,0,la18); (27,0,la18); (28,0,la18); (29,0,la19); (30,0,la19); (34,0,la4);
    (35,0,la4); (36,0,la4); (37,0,la4); (40,0,la4); (41,0,la4); (42,0,la4); (43,0,la4);
    (44,0,la4)];
   [(24,1,la18); (26,0,la18); (27,0,la18); (28,0,la18); (29,0,la19); (30,0,la19); (34,0,la4);
    (35,0,la4); (36,0,la4); (37,0,la4); (40,0,la4); (41,0,la4); (42,0,la4); (43,0,la4);
    (44,0,la4)];
   [(23,1,la18); (26,0,la18); (27,0,la18); (28,0,la18); (29,0,la19); (30,0,la19); (34,0,la4);
    (35,0,la4); (36,0,la4); (37,0,la4); (40,0,la4); (41,0,la4); (42,0,la4); (43,0,la4);
    (44,0,la4)];
   [(3,1,la1); (11,0,la9); (12,0,la9); (13,0,la9); (14,0,la9); (15,0,la9); (16,0,la9)];
   [(29,2,la19); (31,0,la19); (32,0,la19); (33,0,la19); (34,0,la19); (35,0,la19);
    (36,0,la19); (37,0,la19); (40,0,la19); (41,0,la19); (42,0,la19); (43,0,la19); (44,0,la19)];
   [(11,2,la9); (13,0,la9); (14,0,la9); (15,0,la9); (16,0,la9)];
   [(31,1,la19); (34,0,la19); (35,0,la19); (36,0,la19); (37,0,la19); (40,0,la19);
    (41,0,la19); (42,0,la19); (43,0,la19); (44,0,la19)];
   [(32,1,la19); (34,0,la19); (35,0,la19); (36,0,la19); (37,0,la19); (40,0,la19);
    (41,0,la19); (42,0,la19); (43,0,la19); (44,0,la19)];
   [(9,1,la1); (10,1,la1); (16,1,la2)];
   [(3,2,la1); (11,1,la9)];
   [(26,1,la18); (27,1,la18); (28,1,la18)];
   [(35,3,la4); (38,1,la5)];
   [(20,1,la17); (21,1,la17); (22,1,la17)];
   [(17,1,la17); (18,1,la17); (19,1,la17)];
   [(34,2,la4)];
   [(4,1,la1)];
   [(5,1,la1)];
   [(5,2,la1)];
   [(9,2,la1)];
   [(13,1,la9); (16,1,la9)];
   [(29,1,la19); (30,1,la19)];
   [(35,1,la4); (36,1,la4); (41,1,la4)];
   [(5,3,la1)];
   [(6,1,la1)];
   [(7,1,la1)];
   [(8,1,la1)];
   [(9,3,la1)];
   [(10,2,la1)];
   [(45,1,la3)];
   [(46,1,la3)];
   [(47,1,la3)];
   [(2,1,la1)];
   [(1,2,la1)];
   [(3,3,la1)];
   [(11,3,la9)];
   [(16,3,la9)];
   [(17,3,la17)];
   [(20,3,la17)];
   [(26,3,la18)];
   [(29,3,la19)];
   [(31,2,la19)];
   [(23,2,la18)];
   [(24,2,la18)];
   [(37,1,la4)];
   [(40,1,la4)];
   [(42,1,la4)];
   [(43,1,la4)];
   [(44,1,la4)];
   [(25,1,la18)];
   [(35,4,la4)];
   [(38,3,la5)];
   [(36,3,la4)];
   [(39,1,la5)];
   [(34,3,la4)];
   [(32,2,la19)];
   [(33,1,la19)];
   [(27,3,la18)];
   [(21,3,la17)];
   [(18,3,la17)];
   [(14,1,la9)];
   [(15,1,la9)];
   [(12,1,la9)];
   [(4,2,la1)]]%nat.
Definition first_of (A : nonterm) : list Z :=
  match A with
  | Deck => [7; 9; 10; 19; 20; 21]
  | StatementList => [7; 9; 10; 19; 20; 21]
  | Statement => [7; 9; 10; 19; 20; 21]
  | TypeDecl => [19; 20; 21]
  | DeclList => [10]
  | Assignment => [10]
  | StartBlock => [10]
  | Declaration => [10]
  | Expression => [1; 2; 8; 10; 14; 16; 17; 18]
  | SignedTerm => [1; 2; 8; 10; 14; 16; 17; 18]
  | UnsignedExpression => [8; 10; 14; 16; 17; 18]
  | TermExpression => [8; 10; 14; 16; 17; 18]
  | ExpExpression => [8; 10; 14; 16; 17; 18]
  | AtomicExpression => [8; 10; 14; 16; 17; 18]
  | SignedAtomic => [1; 2; 8; 10; 14; 16; 17; 18]
  | ExpressionList => [1; 2; 8; 10; 14; 16; 17; 18]
  | Value => [8; 10; 16; 17; 18]
  end.

Definition items (q : Z) : list (nat * nat * list Z) := nth (Z.to_nat q) cert [].
Definition zin (x : Z) (l : list Z) : bool := existsb (Z.eqb x) l.
Definition zsub (l m : list Z) : bool := forallb (fun x => zin x m) l.
Definition has (q : Z) (r d : nat) (las : list Z) : bool :=
  existsb (fun x => match x with (r', d', las') => Nat.eqb r r' && Nat.eqb d d' && zsub las las' end) (items q).
Definition firsts (X : sym) : list Z := match X with T c => [c] | N A => first_of A end.
Definition follow (rhs : list sym) (las : list Z) : list Z :=
  match rhs with [] => las | X :: _ => firsts X end.
Definition state_ok (q : Z) : bool := (0 <=? q) && (q <? YYNSTATE).
Definition sym_eqb (X Y : sym) : bool :=
  match X, Y with T c, T c' => c =? c' | N A, N B => ncode A =? ncode B | _, _ => false end.

(** The successor of a state on a token or a nonterminal. *)
Definition trans (q : Z) (X : sym) : option Z :=
  match X with
  | T c => if (0 <? c) && (c <? ERROR) && (find_shift_action q c <? YYNSTATE) then Some (find_shift_action q c) else None
  | N A => match find_reduce_action q (ncode A) with
           | Some a => if a <? YYNSTATE then Some a else None
           | None => None
           end
  end.
Definition symbols : list sym := map T (map Z.of_nat (seq 1 21)) ++ map N nonterms.
Definition states : list Z := map Z.of_nat (seq 0 74).

Definition forward_item (q : Z) (x : nat * nat * list Z) : bool :=
  match x with
  | (r, d, las) =>
      match nth_error grammar r with
      | None => false
      | Some (A, rhs) =>
          match nth_error rhs d with
          | None => Nat.eqb d (length rhs) && forallb (fun a => find_shift_action q a =? YYNSTATE + Z.of_nat r) las
          | Some X =>
              sym_eqb X (T ERROR) ||
              (match trans q X with Some q' => state_ok q' && has q' r (S d) las | None => false end &&
               match X with
               | T _ => true
               | N B => forallb (fun r' => match nth_error grammar r' with
                                           | Some (B', _) => negb (ncode B' =? ncode B) || has q r' 0 (follow (skipn (S d) rhs) las)
                                           | None => false
                                           end) (seq 0 48)
               end)
          end
      end
  end.
Definition check_forward : bool := forallb (fun q => forallb (forward_item q) (items q)) states.

Definition rule_ok (r : nat) : bool :=
  match nth_error grammar r, nth_error yyRuleInfo r with
  | Some (A, rhs), Some (c, n) => (ncode A =? c) && Nat.eqb (length rhs) n && negb (Nat.eqb n 0) &&
      match rhs with [] => false | X :: _ => zsub (if sym_eqb X (T ERROR) then [] else firsts X) (first_of A) end
  | _, _ => false
  end.
Definition check_rules : bool :=
  forallb rule_ok (seq 0 48) && Nat.eqb (length grammar) 48 && Nat.eqb (length yyRuleInfo) 48.

(** Every item with the dot not in front comes from an item of every predecessor. *)
Definition backward_item (p : Z) (X : sym) (x : nat * nat * list Z) : bool :=
  match x with
  | (r, d, _) =>
      match d with
      | O => true
      | S d' => match nth_error grammar r with
                | None => false
                | Some (_, rhs) => match nth_error rhs d' with
                                   | Some Y => sym_eqb X Y && has p r d' []
                                   | None => false
                                   end
                end
      end
  end.
Definition check_backward : bool :=
  forallb (fun p => forallb (fun X => match trans p X with
                                      | Some q => state_ok q && negb (q =? 0) && forallb (backward_item p X) (items q)
                                      | None => true
                                      end) symbols) states.

(** Every item with the dot in front has, earlier in the list, an item with the dot before its
    left-hand side. *)
Definition before_sym (A : nonterm) (x : nat * nat * list Z) : bool :=
  match x with (r, d, _) => match nth_error grammar r with
                            | Some (_, rhs) => match nth_error rhs d with Some X => sym_eqb X (N A) | None => false end
                            | None => false
                            end end.
Fixpoint parents_ok (q : Z) (seen l : list (nat * nat * list Z)) : bool :=
  match l with
  | [] => true
  | (r, d, las) :: l' =>
      (match d with
       | O => match nth_error grammar r with
              | Some (A, _) => ((q =? 0) && Nat.eqb r 0) || existsb (before_sym A) seen
              | None => false
              end
       | _ => true
       end) && parents_ok q (seen ++ [(r, d, las)]) l'
  end.
Definition check_parents : bool := forallb (fun q => parents_ok q [] (items q) && negb (Nat.eqb (length (items q)) 0)) states.

(** The possible actions. *)
Definition action_ok (q a : Z) : bool :=
  let act := find_shift_action q a in
  (0 <=? act) &&
  if act <? YYNSTATE then negb (a =? 0)
  else if act <? YYNSTATE + YYNRULE then
    let r := Z.to_nat (act - YYNSTATE) in
    match nth_error grammar r with
    | Some (_, rhs) => has q r (length rhs) [] && (negb (Nat.eqb r 0) || (a =? 0))
    | None => false
    end
  else act =? YY_ERROR_ACTION.
Definition tokens0 : list Z := map Z.of_nat (seq 0 22).
Definition check_actions : bool := forallb (fun q => forallb (action_ok q) tokens0) states.

Lemma forward_true : check_forward = true. Proof. vm_compute. reflexivity. Qed.
Lemma rules_true : check_rules = true. Proof. vm_compute. reflexivity. Qed.
Lemma backward_true : check_backward = true. Proof. vm_compute. reflexivity. Qed.
Lemma parents_true : check_parents = true. Proof. vm_compute. reflexivity. Qed.
Lemma actions_true : check_actions = true. Proof. vm_compute. reflexivity. Qed.
Lemma start_true : has 0 0 0 [0] = true. Proof. vm_compute. reflexivity. Qed.
Lemma accept_true : find_reduce_action 0 (ncode Deck) = Some YY_ACCEPT_ACTION. Proof. vm_compute. reflexivity. Qed.

Definition valid (q : Z) : Prop := 0 <= q < YYNSTATE.
Definition item (q : Z) (r d : nat) (las : list Z) : Prop := In (r, d, las) (items q).

Lemma in_states : forall q, valid q -> In q states.
Proof.
  intros q [H1 H2]. apply in_map_iff. exists (Z.to_nat q). split; [apply Z2Nat.id; assumption|].
  apply in_seq. change YYNSTATE with 74 in H2. lia.
Qed.
Lemma state_ok_valid : forall q, state_ok q = true -> valid q.
Proof. intros q H. apply andb_true_iff in H. destruct H as [H1 H2]. apply Z.leb_le in H1. apply Z.ltb_lt in H2. split; assumption. Qed.

Lemma zin_in : forall x l, zin x l = true -> In x l.
Proof. intros x l H. apply existsb_exists in H. destruct H as [y [Hy E]]. apply Z.eqb_eq in E. subst y. exact Hy. Qed.
Lemma zsub_incl : forall l m, zsub l m = true -> incl l m.
Proof. intros l m H x Hx. unfold zsub in H. rewrite forallb_forall in H. apply zin_in, H, Hx. Qed.
Lemma has_item : forall q r d las, has q r d las = true -> exists las', item q r d las' /\ incl las las'.
Proof.
  intros q r d las H. apply existsb_exists in H. destruct H as [[[r' d'] las'] [Hin E]].
  apply andb_true_iff in E. destruct E as [E E3]. apply andb_true_iff in E. destruct E as [E1 E2].
  apply Nat.eqb_eq in E1. apply Nat.eqb_eq in E2. subst r' d'. exists las'. split; [exact Hin|apply zsub_incl; exact E3].
Qed.

Lemma ncode_inj : forall A B, ncode A = ncode B -> A = B.
Proof. intros A B; destruct A; destruct B; intros H; try reflexivity; discriminate H. Qed.
Lemma ncode_range : forall A, 23 <= ncode A <= 39.
Proof. intros A; destruct A; cbn; lia. Qed.
Lemma sym_eqb_eq : forall X Y, sym_eqb X Y = true -> X = Y.
Proof.
  intros [c|A] [c'|B] H; try discriminate H; apply Z.eqb_eq in H; f_equal; [exact H|apply ncode_inj; exact H].
Qed.

Lemma forward_of : forall q r d las A rhs, valid q -> item q r d las -> nth_error grammar r = Some (A, rhs) ->
  match nth_error rhs d with
  | None => d = length rhs /\ forall a, In a las -> find_shift_action q a = YYNSTATE + Z.of_nat r
  | Some X => X <> T ERROR ->
      (exists q' las', trans q X = Some q' /\ valid q' /\ item q' r (S d) las' /\ incl las las') /\
      match X with
      | T _ => True
      | N B => forall r' rhs', nth_error grammar r' = Some (B, rhs') ->
               exists las', item q r' 0 las' /\ incl (follow (skipn (S d) rhs) las) las'
      end
  end.
Proof.
  intros q r d las A rhs Hq Hi Hg. pose proof forward_true as F. unfold check_forward in F.
  rewrite forallb_forall in F. specialize (F q (in_states q Hq)). rewrite forallb_forall in F.
  specialize (F _ Hi). unfold forward_item in F. rewrite Hg in F.
  destruct (nth_error rhs d) as [X|].
  - intros HX. apply orb_true_iff in F. destruct F as [F|F].
    + exfalso. apply HX, sym_eqb_eq. exact F.
    + apply andb_true_iff in F. destruct F as [F1 F2]. split.
      * destruct (trans q X) as [q'|]; [|discriminate F1]. apply andb_true_iff in F1. destruct F1 as [S1 S2].
        apply state_ok_valid in S1. destruct (has_item _ _ _ _ S2) as [las' [I1 I2]].
        exists q', las'. split; [reflexivity|]. split; [exact S1|]. split; assumption.
      * destruct X as [c|B]; [exact I|]. intros r' rhs' Hr'. rewrite forallb_forall in F2.
        assert (Hlt : (r' < 48)%nat). { change 48%nat with (length grammar). apply nth_error_Some. rewrite Hr'. discriminate. }
        specialize (F2 r' ltac:(apply in_seq; lia)). rewrite Hr' in F2. rewrite Z.eqb_refl in F2. cbn [negb orb] in F2.
        apply has_item. exact F2.
  - apply andb_true_iff in F. destruct F as [F1 F2]. apply Nat.eqb_eq in F1. split; [exact F1|].
    intros a Ha. rewrite forallb_forall in F2. apply Z.eqb_eq. apply F2. exact Ha.
Qed.

Lemma item_rule : forall q r d las, valid q -> item q r d las -> exists A rhs, nth_error grammar r = Some (A, rhs) /\ (d <= length rhs)%nat.
Proof.
  intros q r d las Hq Hi. pose proof forward_true as F. unfold check_forward in F.
  rewrite forallb_forall in F. specialize (F q (in_states q Hq)). rewrite forallb_forall in F.
  specialize (F _ Hi). unfold forward_item in F.
  destruct (nth_error grammar r) as [[A rhs]|]; [|discriminate F]. exists A, rhs. split; [reflexivity|].
  destruct (nth_error rhs d) as [X|] eqn:E.
  - apply Nat.lt_le_incl, nth_error_Some. rewrite E. discriminate.
  - apply andb_true_iff in F. destruct F as [F _]. apply Nat.eqb_eq in F. lia.
Qed.

Lemma rule_facts : forall r A rhs, nth_error grammar r = Some (A, rhs) ->
  nth r yyRuleInfo (0, 0%nat) = (ncode A, length rhs) /\
  exists X rhs', rhs = X :: rhs' /\ (X <> T ERROR -> incl (firsts X) (first_of A)).
Proof.
  intros r A rhs H. pose proof rules_true as F. unfold check_rules in F.
  apply andb_true_iff in F. destruct F as [F _]. apply andb_true_iff in F. destruct F as [F _]. rewrite forallb_forall in F.
  assert (Hlt : (r < 48)%nat). { change 48%nat with (length grammar). apply nth_error_Some. rewrite H. discriminate. }
  specialize (F r ltac:(apply in_seq; lia)). unfold rule_ok in F. rewrite H in F.
  destruct (nth_error yyRuleInfo r) as [[c n]|] eqn:E; [|discriminate F].
  apply andb_true_iff in F. destruct F as [F F4]. apply andb_true_iff in F. destruct F as [F F3].
  apply andb_true_iff in F. destruct F as [F1 F2]. apply Z.eqb_eq in F1. apply Nat.eqb_eq in F2. subst c n. split.
  - apply nth_error_nth with (d := (0, 0%nat)) in E. exact E.
  - destruct rhs as [|X rhs']; [discriminate F4|]. exists X, rhs'. split; [reflexivity|]. intros HX.
    destruct (sym_eqb X (T ERROR)) eqn:EX.
    + exfalso. apply HX, sym_eqb_eq. exact EX.
    + apply zsub_incl. exact F4.
Qed.

Lemma trans_symbol : forall q X q', trans q X = Some q' -> In X symbols.
Proof.
  intros q X q' H. apply in_or_app. destruct X as [c|A].
  - left. apply in_map. unfold trans in H. destruct ((0 <? c) && (c <? ERROR)) eqn:E; [|discriminate H].
    apply andb_true_iff in E. destruct E as [E1 E2]. apply Z.ltb_lt in E1. apply Z.ltb_lt in E2. unfold ERROR in E2.
    apply in_map_iff. exists (Z.to_nat c). split; [lia|]. apply in_seq. lia.
  - right. apply in_map. destruct A; cbn; tauto.
Qed.
Lemma trans_token : forall q c q', trans q (T c) = Some q' -> 0 < c < ERROR /\ find_shift_action q c = q' /\ find_shift_action q c < YYNSTATE.
Proof.
  intros q c q' H. unfold trans in H. destruct ((0 <? c) && (c <? ERROR)) eqn:E; [|discriminate H]. cbn [andb] in H.
  destruct (find_shift_action q c <? YYNSTATE) eqn:E'; [|discriminate H]. apply Z.ltb_lt in E'.
  apply andb_true_iff in E. destruct E as [E1 E2]. apply Z.ltb_lt in E1. apply Z.ltb_lt in E2. injection H as H. tauto.
Qed.
Lemma trans_nonterm : forall q A q', trans q (N A) = Some q' -> find_reduce_action q (ncode A) = Some q' /\ q' < YYNSTATE.
Proof.
  intros q A q' H. unfold trans in H. destruct (find_reduce_action q (ncode A)) as [a|]; [|discriminate H].
  destruct (a <? YYNSTATE) eqn:E; [|discriminate H]. apply Z.ltb_lt in E. injection H as ->. split; [reflexivity|exact E].
Qed.

Lemma backward_of : forall p X q, valid p -> trans p X = Some q -> valid q /\ q <> 0 /\
  forall r d las, item q r (S d) las ->
  exists A rhs las', nth_error grammar r = Some (A, rhs) /\ nth_error rhs d = Some X /\ item p r d las'.
Proof.
  intros p X q Hp Ht. pose proof backward_true as F. unfold check_backward in F. rewrite forallb_forall in F.
  specialize (F p (in_states p Hp)). rewrite forallb_forall in F. specialize (F X (trans_symbol _ _ _ Ht)).
  rewrite Ht in F. apply andb_true_iff in F. destruct F as [F F3]. apply andb_true_iff in F. destruct F as [F1 F2].
  split; [apply state_ok_valid; exact F1|]. split; [apply negb_true_iff in F2; apply Z.eqb_neq; exact F2|].
  intros r d las Hi. rewrite forallb_forall in F3. specialize (F3 _ Hi). unfold backward_item in F3.
  destruct (nth_error grammar r) as [[A rhs]|]; [|discriminate F3].
  destruct (nth_error rhs d) as [Y|] eqn:EY; [|discriminate F3].
  apply andb_true_iff in F3. destruct F3 as [F3 F4]. destruct (has_item _ _ _ _ F4) as [las' [I1 _]].
  exists A, rhs, las'. split; [reflexivity|]. split; [|exact I1]. rewrite EY. f_equal.
  symmetry. apply sym_eqb_eq. exact F3.
Qed.

Lemma item_cases : forall q (P : nat -> nat -> Prop), valid q ->
  (forall r d las, item q r (S d) las -> P r (S d)) ->
  (q = 0 -> P 0%nat 0%nat) ->
  (forall r A rhs r' d' las' A' rhs', nth_error grammar r = Some (A, rhs) -> item q r' d' las' -> P r' d' ->
     nth_error grammar r' = Some (A', rhs') -> nth_error rhs' d' = Some (N A) -> P r 0%nat) ->
  forall r d las, item q r d las -> P r d.
Proof.
  intros q P Hq HS H0 HC. pose proof parents_true as F. unfold check_parents in F. rewrite forallb_forall in F.
  specialize (F q (in_states q Hq)). apply andb_true_iff in F. destruct F as [F _].
  assert (G : forall l seen, (forall x, In x seen -> In x (items q) /\ P (fst (fst x)) (snd (fst x))) ->
              (forall x, In x l -> In x (items q)) -> parents_ok q seen l = true ->
              forall x, In x l -> P (fst (fst x)) (snd (fst x))).
  { induction l as [|[[r d] las] l IH]; intros seen Hseen Hl Hp x Hx; [destruct Hx|].
    cbn [parents_ok] in Hp. apply andb_true_iff in Hp. destruct Hp as [Hp1 Hp2].
    assert (Px : P r d).
    { destruct d as [|d]; [|apply (HS r d las); apply (Hl (r, S d, las)); left; reflexivity].
      destruct (nth_error grammar r) as [[A rhs]|] eqn:EG; [|discriminate Hp1].
      apply orb_true_iff in Hp1. destruct Hp1 as [Hp1|Hp1].
      - apply andb_true_iff in Hp1. destruct Hp1 as [E1 E2]. apply Z.eqb_eq in E1. apply Nat.eqb_eq in E2. subst r. apply H0. exact E1.
      - apply existsb_exists in Hp1. destruct Hp1 as [[[r' d'] las'] [Hin Hb]]. unfold before_sym in Hb.
        destruct (nth_error grammar r') as [[A' rhs']|] eqn:EG'; [|discriminate Hb].
        destruct (nth_error rhs' d') as [X|] eqn:EX; [|discriminate Hb]. apply sym_eqb_eq in Hb. subst X.
        destruct (Hseen _ Hin) as [I1 I2]. exact (HC r A rhs r' d' las' A' rhs' EG I1 I2 EG' EX). }
    destruct Hx as [<-|Hx]; [exact Px|]. apply (IH (seen ++ [(r, d, las)])); [| |exact Hp2|exact Hx].
    - intros y Hy. apply in_app_or in Hy. destruct Hy as [Hy|[<-|[]]]; [apply Hseen; exact Hy|]. split; [apply Hl; left; reflexivity|exact Px].
    - intros y Hy. apply Hl. right. exact Hy. }
  intros r d las Hi. apply (G (items q) [] ltac:(intros x []) ltac:(intros x Hx; exact Hx) F (r, d, las) Hi).
Qed.

Lemma some_item : forall q, valid q -> exists r d las, item q r d las.
Proof.
  intros q Hq. pose proof parents_true as F. unfold check_parents in F. rewrite forallb_forall in F.
  specialize (F q (in_states q Hq)). apply andb_true_iff in F. destruct F as [_ F].
  unfold item. destruct (items q) as [|[[r d] las] l]; [discriminate F|]. exists r, d, las. left. reflexivity.
Qed.

Lemma action_cases : forall q a, valid q -> 0 <= a < ERROR ->
  (exists q', find_shift_action q a = q' /\ 0 <= q' < YYNSTATE /\ a <> 0) \/
  (exists r A rhs las, find_shift_action q a = YYNSTATE + Z.of_nat r /\ (Z.of_nat r < YYNRULE) /\
     nth_error grammar r = Some (A, rhs) /\ item q r (length rhs) las /\ (r = 0%nat -> a = 0)) \/
  find_shift_action q a = YY_ERROR_ACTION.
Proof.
  intros q a Hq Ha. pose proof actions_true as F. unfold check_actions in F. rewrite forallb_forall in F.
  specialize (F q (in_states q Hq)). rewrite forallb_forall in F.
  specialize (F a ltac:(apply in_map_iff; exists (Z.to_nat a); split; [lia|]; apply in_seq; unfold ERROR in Ha; lia)).
  unfold action_ok in F. apply andb_true_iff in F. destruct F as [F0 F]. apply Z.leb_le in F0.
  destruct (find_shift_action q a <? YYNSTATE) eqn:E1.
  - left. apply Z.ltb_lt in E1. exists (find_shift_action q a). split; [reflexivity|]. split; [lia|].
    apply negb_true_iff in F. apply Z.eqb_neq. exact F.
  - apply Z.ltb_ge in E1. destruct (find_shift_action q a <? YYNSTATE + YYNRULE) eqn:E2.
    + right. left. apply Z.ltb_lt in E2. cbn zeta in F.
      destruct (nth_error grammar (Z.to_nat (find_shift_action q a - YYNSTATE))) as [[A rhs]|] eqn:EG; [|discriminate F].
      apply andb_true_iff in F. destruct F as [F1 F2]. destruct (has_item _ _ _ _ F1) as [las [I1 _]].
      exists (Z.to_nat (find_shift_action q a - YYNSTATE)), A, rhs, las. split; [lia|]. split; [lia|]. split; [exact EG|]. split; [exact I1|].
      intros E0. rewrite E0 in F2. cbn in F2. apply Z.eqb_eq. exact F2.
    + right. right. apply Z.eqb_eq. exact F.
Qed.

Lemma start_item : exists las, item 0 0 0 las /\ incl [0] las.
Proof. exact (has_item _ _ _ _ start_true). Qed.
Lemma valid_start : valid 0.
Proof. split; [lia|reflexivity]. Qed.
