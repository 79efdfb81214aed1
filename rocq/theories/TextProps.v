(** C46-C48, C55, C73-C75 for decks given as text: what the theorems of [DeckProps] and [BlockProps]
    say of lists of statements, said of the texts the program accepts ([TextSpec]), however long the
    expressions in them. *)
From Coq Require Import ZArith List String Ascii.
From Verif Require Import ScanModel ParseModel ParseSpec ExprModel ExprSyntax DeckModel DeckSyntax DeckMeaning DeckSpec BlockModel BlockSpec TextSpec TextProofs.
Import ListNotations.
Local Open Scope nat_scope.
Local Open Scope string_scope.

(** C46.  Declared variables stay declared; read-only variables keep their type and value. *)
Theorem C46_text :
  forall A reg funs restricted, typed_functions A funs ->
  forall text d d', history A reg funs restricted d -> accepts A reg funs restricted text d d' ->
  (forall b n x, declares (d_blocks (start A d)) b n x -> declares (d_blocks d') b n x) /\
  forall x v, nth_error (d_vars (start A d)) x = Some v -> v_ro v = true ->
    exists v', nth_error (d_vars d') x = Some v' /\ v_type v' = v_type v /\ v_ro v' = true /\ v_expr v' = v_expr v /\ (v_fixed v = true -> v' = v).
Proof. exact text_never_changes. Qed.
Print Assumptions C46_text.

(** C47. *)
Theorem C47_text :
  forall A reg funs restricted, typed_functions A funs ->
  forall classes, NoDup (map fst classes) -> typed_classes A classes ->
  forall root rootclass text d' p, accepts A reg funs restricted text (new_deck A root rootclass classes) d' ->
  p <> [] -> consists text p ->
  exists stack objs, nesting A classes root rootclass p stack objs /\
    List.length (d_objs d') = List.length objs /\ NoDup (map o_vars (d_objs d')) /\
    forall i o, nth_error (d_objs d') i = Some o ->
      nth_error objs i = Some (o_name o, o_class o, o_parent o) /\ o_children o = inside objs i /\
      exists blk, nth_error (d_blocks d') (o_vars o) = Some blk /\ b_name blk = o_name o /\ b_class blk = o_class o.
Proof. exact text_objects. Qed.
Print Assumptions C47_text.

(** For every text that is accepted. *)
Theorem C47_any_text :
  forall A reg funs restricted, typed_functions A funs ->
  forall classes, NoDup (map fst classes) -> typed_classes A classes ->
  forall root rootclass text d', accepts A reg funs restricted text (new_deck A root rootclass classes) d' ->
  exists p stack objs, stands_for text p /\ nesting A classes root rootclass p stack objs /\
    List.length (d_objs d') = List.length objs /\ NoDup (map o_vars (d_objs d')) /\
    forall i o, nth_error (d_objs d') i = Some o ->
      nth_error objs i = Some (o_name o, o_class o, o_parent o) /\ o_children o = inside objs i /\
      exists blk, nth_error (d_blocks d') (o_vars o) = Some blk /\ b_name blk = o_name o /\ b_class blk = o_class o.
Proof. exact text_objects_any. Qed.
Print Assumptions C47_any_text.

(** C48.  At the end every variable with an expression has the value of the expression, unless its
    evaluation fails. *)
Theorem C48_text_partial :
  forall A reg funs restricted, typed_functions A funs ->
  forall text d d', history A reg funs restricted d -> accepts A reg funs restricted text d d' -> forall x e, defined_by A d' x e ->
  eval (store_of A funs d') e = Ok (v_val (var_at A d' x)) \/ eval (store_of A funs d') e = BadCast \/ eval (store_of A funs d') e = BadGet.
Proof. exact text_values. Qed.
Print Assumptions C48_text_partial.

(** C55.  The objects form a tree. *)
Theorem C55_text :
  forall A reg funs restricted, typed_functions A funs ->
  forall classes, NoDup (map fst classes) -> typed_classes A classes ->
  forall root rootclass, distinct_params A classes -> forall text d', accepts A reg funs restricted text (new_deck A root rootclass classes) d' ->
  linked (d_objs d') /\
  (implemented A classes rootclass -> is_root (d_objs d') 0 /\ forall j, j < List.length (d_objs d') -> within (d_objs d') 0 j).
Proof. exact text_tree. Qed.
Print Assumptions C55_text.

(** C73. *)
Theorem C73_text :
  forall A reg funs restricted, typed_functions A funs ->
  forall classes, NoDup (map fst classes) -> typed_classes A classes ->
  forall root rootclass, restricted = true -> forall text d', accepts A reg funs restricted text (new_deck A root rootclass classes) d' ->
  forall i blk o outer, nth_error (d_blocks d') i = Some blk -> b_parent blk = Some o -> nth_error (d_blocks d') o = Some outer ->
  exists c, In (b_class outer, c) classes /\ In (b_class blk) (c_allowed A c).
Proof. exact text_allowed. Qed.
Print Assumptions C73_text.

(** C74. *)
Theorem C74_text_partial :
  forall A reg funs restricted, typed_functions A funs ->
  forall classes, NoDup (map fst classes) -> typed_classes A classes ->
  forall root rootclass text d', accepts A reg funs restricted text (new_deck A root rootclass classes) d' -> implemented A classes rootclass ->
  d_root d' = Some 0 /\ forall j, j < List.length (d_objs d') -> reachable A d' 0 j.
Proof. exact text_reachable. Qed.
Print Assumptions C74_text_partial.

(** C75. *)
Theorem C75_registered_text :
  forall A reg funs restricted, typed_functions A funs ->
  forall classes, NoDup (map fst classes) -> typed_classes A classes ->
  forall root rootclass, distinct_params A classes -> forall text d', accepts A reg funs restricted text (new_deck A root rootclass classes) d' ->
  forall i o, nth_error (d_objs d') i = Some o ->
  exists c l, In (o_class o, c) classes /\ c_impl A c = Some l /\
    (forall n, (exists x m, binds A d' i n x m) <-> In n (map fst l)) /\
    forall n k, In (n, k) l -> exists x m v, binds A d' i n x m /\ declares (d_blocks d') (o_vars o) n x /\
      nth_error (d_vars d') x = Some v /\ param_state A (d_mem d') k m v.
Proof. exact text_registered. Qed.
Print Assumptions C75_registered_text.

Theorem C75_evaluated_text :
  forall A reg funs restricted, typed_functions A funs ->
  forall classes, NoDup (map fst classes) -> typed_classes A classes ->
  forall root rootclass, distinct_params A classes -> forall text d', accepts A reg funs restricted text (new_deck A root rootclass classes) d' ->
  forall i, i < List.length (d_objs d') ->
  (forall d1, evaluate_all A funs i d' = inr d1 ->
     same_but_memory A d' d1 /\
     (forall n v c, receives A d' i n v c -> ready A funs d' v /\ nth_error (d_mem d1) c = Some (v_val v)) /\
     (forall c, (forall n v, ~ receives A d' i n v c) -> nth_error (d_mem d1) c = nth_error (d_mem d') c)) /\
  (forall e, evaluate_all A funs i d' = inl e ->
     e <> EvalUndefined /\
     exists n v c, receives A d' i n v c /\ ~ ready A funs d' v /\ (forall m, e = NotInitialised m -> m = n /\ v_init v = false)).
Proof. exact text_evaluated. Qed.
Print Assumptions C75_evaluated_text.

Theorem C75_required_text :
  forall A reg funs restricted, typed_functions A funs ->
  forall classes, NoDup (map fst classes) -> typed_classes A classes ->
  forall root rootclass, distinct_params A classes -> forall text d', accepts A reg funs restricted text (new_deck A root rootclass classes) d' ->
  forall p, p <> [] -> consists text p ->
  forall i o c l n t x m v, nth_error (d_objs d') i = Some o -> In (o_class o, c) classes -> c_impl A c = Some l -> In (n, Required A t) l ->
  binds A d' i n x m -> nth_error (d_vars d') x = Some v ->
  (v_init v = true <->
   exists before name e after d1 path, p = (before ++ SAssign name e :: after)%list /\
     run A reg funs restricted before (start A (new_deck A root rootclass classes)) = inr d1 /\
     components ":"%char name path /\ means (d_blocks d1) (d_cursor d1) path x).
Proof. intros A reg funs restricted T classes N Tc root rootclass D text d' Ac p. exact (text_required A reg funs restricted T classes N Tc root rootclass D text d' p Ac). Qed.
Print Assumptions C75_required_text.
