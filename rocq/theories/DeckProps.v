(** Properties of input decks: braces, lookup, declarations, block objects, early use, cycles. *)
From Coq Require Import ZArith List String Ascii Relations.
From Verif Require Import ScanModel ParseModel ParseSpec ExprModel ExprSyntax DepModel DepSpec DeckModel DeckSyntax DeckMeaning DeckSpec DeckEffectProofs DeckObjectProofs DeckExamples DeckRefuted.
Import ListNotations.
Local Open Scope nat_scope.
Local Open Scope string_scope.

(** C43.  A deck in which some closing brace has no opening brace before it is rejected... *)
Theorem C43_closing_brace :
  forall A reg funs restricted, typed_functions A funs ->
  forall text toks root rootclass classes r before after, typed_classes A classes -> read text toks ->
  parses_to A reg funs restricted toks (new_deck A root rootclass classes) r ->
  toks = (before ++ after)%list -> count LBRACE before < count RBRACE before ->
  (forall d, r <> Accepted A d) /\ r <> DuplicateId A /\ r <> AssertFailed A.
Proof. exact extra_brace. Qed.
Print Assumptions C43_closing_brace.

(** ... but a deck with a missing closing brace is accepted, ... *)
Theorem C43_opening_brace_refuted :
  exists toks d, read missing toks /\ count LBRACE toks = 1 /\ count RBRACE toks = 0 /\
  parses_to deck_arith no_fun no_eval false toks (new_deck deck_arith "main" "main" bodies) (Accepted _ d) /\ d_cursor d = 1.
Proof. exact missing_accepted. Qed.
Print Assumptions C43_opening_brace_refuted.

(** ... and leaves the parser in as many blocks as there are braces missing. *)
Theorem C43_opening_brace_partial :
  forall A reg funs restricted, typed_functions A funs ->
  forall text toks root rootclass classes d, typed_classes A classes -> read text toks ->
  parses_to A reg funs restricted toks (new_deck A root rootclass classes) (Accepted A d) ->
  exists l, enclosing (d_blocks d) (d_cursor d) l /\ List.length l + count RBRACE toks = 1 + count LBRACE toks.
Proof. exact open_blocks. Qed.
Print Assumptions C43_opening_brace_partial.

(** C44. *)
Theorem C44_lookup :
  forall A reg funs restricted, typed_functions A funs ->
  forall d b name path, history A reg funs restricted d -> components ":"%char name path ->
  (forall x, get_variable (d_blocks d) b name = Some x <-> means (d_blocks d) b path x) /\
  (get_variable (d_blocks d) b name = None <-> forall x, ~ means (d_blocks d) b path x).
Proof. exact lookup_spec. Qed.
Print Assumptions C44_lookup.

(** C45.  Local lookup agrees; upward [exists] is wrong: it never looks in an enclosing block,
    separates paths by dots, and at the root dereferences a null pointer. *)
Theorem C45_local_partial :
  forall A reg funs restricted, typed_functions A funs ->
  forall d b path, history A reg funs restricted d -> b < List.length (d_blocks d) -> path <> [] ->
  exists r, exists_path (d_blocks d) b path false = Some r /\ (r = true <-> exists x, get_down (d_blocks d) b path = Some x).
Proof. exact exists_spec. Qed.
Print Assumptions C45_local_partial.

Theorem C45_upward_partial :
  forall A reg funs restricted, typed_functions A funs ->
  forall d b path, history A reg funs restricted d -> b < List.length (d_blocks d) -> path <> [] ->
  (exists_path (d_blocks d) b path true = Some true <-> exists x, leads (d_blocks d) b path x) /\
  (exists_path (d_blocks d) b path true = None -> b = 0 /\ forall x, ~ leads (d_blocks d) b path x).
Proof. exact exists_up. Qed.
Print Assumptions C45_upward_partial.

Theorem C45_upward_refuted :
  exists d, history deck_arith no_fun no_eval true d /\
  (get_variable (d_blocks d) 1 "a" = Some 2 /\ exists_variable (d_blocks d) 1 "a" = Some false) /\
  (get_variable (d_blocks d) 0 "g:i:n" = Some 4 /\ exists_variable (d_blocks d) 0 "g:i:n" = None) /\
  (get_variable (d_blocks d) 0 "z" = None /\ exists_variable (d_blocks d) 0 "z" = None).
Proof. exact exists_wrong. Qed.
Print Assumptions C45_upward_refuted.

(** C46.  A declaration creates new variables of the declared type in the current block and changes
    nothing else ... *)
Theorem C46_declaration :
  forall A reg funs restricted, typed_functions A funs ->
  forall d t x rest d', history A reg funs restricted d -> exec A reg funs restricted (SDecl t x rest) d = inr d' ->
  let names := map fst (x :: rest) in
  exists new, d_vars d' = (d_vars d ++ new)%list /\ List.length new = List.length names /\
    Forall (fun v => v_type v = t /\ v_ro v = false) new /\ same_rest A d d' /\ NoDup names /\
    (forall n y, In n names -> ~ declares (d_blocks d) (d_cursor d) n y) /\
    (forall b n y, declares (d_blocks d') b n y <->
       declares (d_blocks d) b n y \/
       (b = d_cursor d /\ In (n, y) (combine (rev names) (seq (List.length (d_vars d)) (List.length names))))).
Proof. exact declaration. Qed.
Print Assumptions C46_declaration.

(** ... and is rejected if the block already has a variable of one of the names. *)
Theorem C46_redeclaration :
  forall A reg funs restricted, typed_functions A funs ->
  forall d t x rest, history A reg funs restricted d ->
  (exists n y, In n (map fst (x :: rest)) /\ declares (d_blocks d) (d_cursor d) n y) \/ ~ NoDup (map fst (x :: rest)) ->
  exists f, exec A reg funs restricted (SDecl t x rest) d = inl f.
Proof. exact redeclaration. Qed.
Print Assumptions C46_redeclaration.

Theorem C46_assignment :
  forall A reg funs restricted, typed_functions A funs ->
  forall d name path e d', history A reg funs restricted d -> components ":"%char name path ->
  exec A reg funs restricted (SAssign name e) d = inr d' ->
  exists x v v', means (d_blocks d) (d_cursor d) path x /\ nth_error (d_vars d) x = Some v /\ v_ro v = false /\
    nth_error (d_vars d') x = Some v' /\ v_type v' = v_type v /\ v_ro v' = false /\
    (forall y, y <> x -> nth_error (d_vars d') y = nth_error (d_vars d) y) /\ d_blocks d' = d_blocks d /\ same_rest A d d'.
Proof. exact assignment. Qed.
Print Assumptions C46_assignment.

Theorem C46_never_changes :
  forall A reg funs restricted, typed_functions A funs ->
  forall d d', history A reg funs restricted d -> later A reg funs restricted d d' ->
  (forall b n x, declares (d_blocks d) b n x -> declares (d_blocks d') b n x) /\
  forall x v, nth_error (d_vars d) x = Some v ->
    exists v', nth_error (d_vars d') x = Some v' /\ v_type v' = v_type v /\ v_ro v' = v_ro v /\ (v_ro v = true -> v' = v).
Proof. exact never_changes. Qed.
Print Assumptions C46_never_changes.

(** At the end of the deck the variables with an expression are given values; nothing else changes. *)
Theorem C46_end :
  forall A reg funs restricted, typed_functions A funs ->
  forall d d', history A reg funs restricted d -> finish A funs d = Accepted A d' ->
  d_blocks d' = d_blocks d /\
  forall x v, nth_error (d_vars d) x = Some v ->
    exists v', nth_error (d_vars d') x = Some v' /\ v_type v' = v_type v /\ v_ro v' = v_ro v /\ v_expr v' = v_expr v /\
      (v_fixed v = true -> v' = v).
Proof. exact finish_keeps. Qed.
Print Assumptions C46_end.

(** C47. *)
Theorem C47_objects :
  forall A reg funs restricted, typed_functions A funs ->
  forall root rootclass classes p d, NoDup (map fst classes) -> typed_classes A classes ->
  run A reg funs restricted p (start A (new_deck A root rootclass classes)) = inr d ->
  exists stack objs, nesting A classes root rootclass p stack objs /\
    List.length (d_objs d) = List.length objs /\ NoDup (map o_vars (d_objs d)) /\
    forall i o, nth_error (d_objs d) i = Some o ->
      nth_error objs i = Some (o_name o, o_class o, o_parent o) /\ o_children o = inside objs i /\
      exists blk, nth_error (d_blocks d) (o_vars o) = Some blk /\ b_name blk = o_name o /\ b_class blk = o_class o.
Proof. exact objects_spec. Qed.
Print Assumptions C47_objects.

(** C48.  The variable sees the default value of a parameter that gets its value later... *)
Theorem C48_early_use_refuted :
  exists toks d, read early toks /\
  parses_to deck_arith no_fun no_eval true toks (new_deck deck_arith "main" "main" bodies) (Accepted _ d) /\
  value_of d "a" = Some 0%Z /\ value_of d "x" = Some 5%Z.
Proof. exact early_use. Qed.
Print Assumptions C48_early_use_refuted.

(** ... but every variable that keeps its expression has, at the end, the value of the expression
    for the final values of the variables in it. *)
Theorem C48_final_values_partial :
  forall A reg funs restricted, typed_functions A funs ->
  forall d d', history A reg funs restricted d -> finish A funs d = Accepted A d' ->
  forall x e, defined_by A d x e -> defined_by A d' x e /\
    (eval (store_of A funs d') e = Ok (v_val (var_at A d' x)) \/
     eval (store_of A funs d') e = BadCast \/ eval (store_of A funs d') e = BadGet).
Proof. exact final_values. Qed.
Print Assumptions C48_final_values_partial.

(** C52. *)
Theorem C52_accepted_acyclic :
  forall A reg funs restricted, typed_functions A funs ->
  forall text toks d d', history A reg funs restricted d -> read text toks ->
  parses_to A reg funs restricted toks d (Accepted A d') -> no_cycle A d'.
Proof. exact deck_acyclic. Qed.
Print Assumptions C52_accepted_acyclic.

Theorem C52_accepted_acyclic_state :
  forall A reg funs restricted, typed_functions A funs ->
  forall d d', history A reg funs restricted d -> finish A funs d = Accepted A d' -> no_cycle A d /\ no_cycle A d'.
Proof. exact accepted_acyclic. Qed.
Print Assumptions C52_accepted_acyclic_state.

(** A cycle is not reported as an error but fails an assertion. *)
Theorem C52_cycle_asserts :
  forall A reg funs restricted, typed_functions A funs ->
  forall d x, history A reg funs restricted d -> clos_trans nat (uses A d) x x -> finish A funs d = AssertFailed A.
Proof. exact cyclic_asserts. Qed.
Print Assumptions C52_cycle_asserts.

Theorem C52_acyclic_ends :
  forall A reg funs restricted, typed_functions A funs ->
  forall d, history A reg funs restricted d -> no_cycle A d ->
  (exists d', finish A funs d = Accepted A d') \/ finish A funs d = Crashed A.
Proof. exact acyclic_ends. Qed.
Print Assumptions C52_acyclic_ends.

(** C72.  The statements written are executed one by one ... *)
Theorem C72_statements_executed_partial :
  forall A reg funs restricted toks p d, p <> [] -> written toks p -> shallow 99 (tokens A toks) ->
  exists r, parses_to A reg funs restricted toks d r /\ executes_to A reg funs restricted p d r.
Proof. exact deck_executed. Qed.
Print Assumptions C72_statements_executed_partial.

(** ... also if their expressions are too long for the stack of the parser, unless that is
    reported as an error ... *)
Theorem C72_statements_or_error_partial :
  forall A reg funs restricted toks p d, p <> [] -> written toks p ->
  exists r, parses_to A reg funs restricted toks d r /\
    (executes_to A reg funs restricted p d r \/ (exists f, r = Rejected A f) \/ (exists t, r = SyntaxErr A t) \/ r = Crashed A).
Proof. exact deck_executed_or_error. Qed.
Print Assumptions C72_statements_or_error_partial.

Theorem C72_accepted_executed :
  forall A reg funs restricted toks p d r, p <> [] -> written toks p -> parses_to A reg funs restricted toks d r ->
  (exists d', r = Accepted A d') \/ r = DuplicateId A \/ r = AssertFailed A -> executes_to A reg funs restricted p d r.
Proof. exact accepted_executed. Qed.
Print Assumptions C72_accepted_executed.

(** ... and nothing else is accepted, but for stretches of at least 99 tokens within a statement
    that the parser drops. *)
Theorem C72_accepted_is_statements_partial :
  forall A reg funs restricted text toks d r, read text toks -> parses_to A reg funs restricted toks d r ->
  (exists d', r = Accepted A d') \/ r = DuplicateId A \/ r = AssertFailed A ->
  exists p, p <> [] /\ reads_as toks p /\ executes_to A reg funs restricted p d r.
Proof. exact deck_is_statements. Qed.
Print Assumptions C72_accepted_is_statements_partial.

Theorem C72_short_statements :
  forall A toks p, reads_as toks p -> short_statements 97 (tokens A toks) -> written toks p.
Proof. exact short_reads. Qed.
Print Assumptions C72_short_statements.

(** The code violates the full property.  A declaration with a sum of fifty numbers is rejected ... *)
Theorem C72_fifty_operands_refuted : exists text toks p t, read text toks /\ p <> [] /\ written toks p /\
  let d := new_deck deck_arith "main" "main" bodies in
  parses_to deck_arith no_fun no_eval false toks d (SyntaxErr _ t) /\
  exists d', executes_to deck_arith no_fun no_eval false p d (Accepted _ d') /\ value_of d' "k" = Some 50%Z.
Proof. exact fifty_deck. Qed.
Print Assumptions C72_fifty_operands_refuted.

(** ... and a deck is accepted that is no list of statements: half of an assignment is dropped. *)
Theorem C72_dropped_tokens_refuted : exists text toks d', read text toks /\
  parses_to deck_arith no_fun no_eval false toks (new_deck deck_arith "main" "main" bodies) (Accepted _ d') /\
  (forall p, ~ written toks p) /\ value_of d' "y" = Some 2%Z.
Proof. exact broken_deck. Qed.
Print Assumptions C72_dropped_tokens_refuted.

(** C73. *)
Theorem C73_restricted_blocks :
  forall A reg funs restricted, typed_functions A funs ->
  forall classes, NoDup (map fst classes) -> typed_classes A classes -> restricted = true ->
  forall root rootclass p d, run A reg funs restricted p (start A (new_deck A root rootclass classes)) = inr d ->
  forall i blk o outer, nth_error (d_blocks d) i = Some blk -> b_parent blk = Some o -> nth_error (d_blocks d) o = Some outer ->
  exists c, In (b_class outer, c) classes /\ In (b_class blk) (c_allowed A c).
Proof. exact blocks_allowed. Qed.
Print Assumptions C73_restricted_blocks.

(** C74.  With an implementation of the root class, the object returned leads to all others. *)
Theorem C74_root_partial :
  forall A reg funs restricted, typed_functions A funs ->
  forall classes, NoDup (map fst classes) -> typed_classes A classes ->
  forall root rootclass p d, run A reg funs restricted p (start A (new_deck A root rootclass classes)) = inr d ->
  implemented A classes rootclass ->
  d_root d = Some 0 /\ forall j, j < List.length (d_objs d) -> reachable A d 0 j.
Proof. exact all_reachable. Qed.
Print Assumptions C74_root_partial.

(** Without one, only the first of several blocks is returned. *)
Theorem C74_root_refuted :
  exists toks d, read two_items toks /\ NoDup (map fst rootless) /\ typed_classes deck_arith rootless /\
  parses_to deck_arith no_fun no_eval false toks (new_deck deck_arith "main" "main" rootless) (Accepted _ d) /\
  map o_name (d_objs d) = ["p"; "q"] /\ d_root d = Some 0 /\ ~ reachable deck_arith d 0 1.
Proof. exact second_lost. Qed.
Print Assumptions C74_root_refuted.
