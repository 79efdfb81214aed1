(** Properties of the tree of block objects: initialisation, shared data, parameters, containers. *)
From Coq Require Import ZArith List String Ascii.
From Verif Require Import ScanModel ParseModel ParseSpec ExprModel ExprSyntax DeckModel DeckSyntax DeckMeaning DeckSpec DeckObjectProofs DeckExamples BlockModel BlockSpec BlockTreeProofs BlockDataProofs BlockEvalProofs BlockExamples.
Import ListNotations.
Local Open Scope nat_scope.
Local Open Scope string_scope.

(** C55.  [initAll] of the root or of a child of the root calls, up to the first exception, the
    functions of each phase for all blocks, each once, parents first, one phase after the other.
    Missing: any other block as receiver. *)
Theorem C55_phases_partial :
  forall objs, linked objs -> forall r i, is_root objs r -> i = r \/ child_of objs r i ->
  exists order, in_order objs r order /\
  forall St Exn (hook : phase -> nat -> St -> Exn + St) s,
  exists n, forall fuel, n <= fuel -> init_all objs hook fuel i s = Some (perform hook (phases order) s).
Proof. exact init_phases. Qed.
Print Assumptions C55_phases_partial.

(** The objects made for a deck form such a tree, all inside the first. *)
Theorem C55_deck_tree :
  forall A reg funs restricted, typed_functions A funs ->
  forall classes, NoDup (map fst classes) -> typed_classes A classes -> distinct_params A classes ->
  forall root rootclass prog d d', run A reg funs restricted prog (start A (new_deck A root rootclass classes)) = inr d ->
  finish A funs d = Accepted A d' ->
  linked (d_objs d') /\
  (implemented A classes rootclass -> is_root (d_objs d') 0 /\ forall j, j < List.length (d_objs d') -> within (d_objs d') 0 j).
Proof. exact final_tree. Qed.
Print Assumptions C55_deck_tree.

(** From any block two or more levels below the root [initAll] never returns, ... *)
Theorem C55_deep_receiver_partial :
  forall objs i p q, child_of objs p i -> child_of objs q p ->
  forall St Exn (hook : phase -> nat -> St -> Exn + St) s fuel, init_all objs hook fuel i s = None.
Proof. exact init_hangs. Qed.
Print Assumptions C55_deep_receiver_partial.

(** ... for example in [x = 7; item p { n = 5; item q { } item s { n = x + 1; } }] from [q]. *)
Theorem C55_receiver_refuted :
  exists toks d, read three toks /\
  parses_to deck_arith no_fun no_eval false toks (new_deck deck_arith "main" "main" bodies) (Accepted _ d) /\
  within (d_objs d) 0 2 /\
  forall St Exn (hook : phase -> nat -> St -> Exn + St) s fuel, init_all (d_objs d) hook fuel 2 s = None.
Proof. exact deep_receiver. Qed.
Print Assumptions C55_receiver_refuted.

(** C56.  A block holds the datum it registered last under a key. *)
Theorem C56_registered :
  forall (Ptr : Type) (calls : list (nat * string * Ptr)) i key p,
  holds (fold_left (fun r c => add_data r (fst (fst c)) (snd (fst c)) (snd c)) calls []) i key p <->
  exists before after, calls = (before ++ ((i, key), p) :: after)%list /\ forall q, ~ In ((i, key), q) after.
Proof. exact holds_latest. Qed.
Print Assumptions C56_registered.

(** A key without dots is found at the nearest block around that registered it; ... *)
Theorem C56_nearest :
  forall Ptr objs (r : registry Ptr), linked objs -> forall i key l near b far p, plain key -> around objs i l -> l = (near ++ b :: far)%list ->
  holds r b key p -> (forall b', In b' near -> ~ held r b' key) -> retrieve objs r i key = Found p.
Proof. exact @nearest_plain. Qed.
Print Assumptions C56_nearest.

(** ... if there is none, the whole tree is searched, and the result must be unique; ... *)
Theorem C56_elsewhere :
  forall Ptr objs (r : registry Ptr), linked objs -> forall i key l root, plain key -> around objs i l -> last l 0 = root ->
  (forall b, In b l -> ~ held r b key) ->
  (forall p, retrieve objs r i key = Found p <->
     exists j, topmost objs r root key j /\ holds r j key p /\ forall k, topmost objs r root key k -> k = j) /\
  (retrieve objs r i key = Missing <-> forall j, within objs root j -> ~ held r j key) /\
  (retrieve objs r i key = Duplicate <-> exists j k, topmost objs r root key j /\ topmost objs r root key k /\ j <> k).
Proof. exact @elsewhere_plain. Qed.
Print Assumptions C56_elsewhere.

(** ... in general a key may be a path of block names: it is found if there is one candidate, an
    exception is thrown if there are none or several. *)
Theorem C56_paths :
  forall Ptr objs (r : registry Ptr), linked objs -> forall i key, i < List.length objs ->
  (forall p, retrieve objs r i key = Found p <->
     exists x, candidate objs r i key x /\ holds r (fst x) (snd x) p /\ forall y, candidate objs r i key y -> y = x) /\
  (retrieve objs r i key = Missing <-> forall x, ~ candidate objs r i key x) /\
  (retrieve objs r i key = Duplicate <-> exists x y, candidate objs r i key x /\ candidate objs r i key y /\ x <> y).
Proof. exact @retrieve_spec. Qed.
Print Assumptions C56_paths.

(** Retrieved as a pointer, data registered as pointers win however far away they are, ... *)
Theorem C56_pointer_partial :
  forall (Ptr PPtr : Type) (star : PPtr -> Ptr) objs (rp : registry PPtr) (r : registry Ptr), linked objs -> forall i key, i < List.length objs ->
  ((forall x, ~ candidate objs rp i key x) -> retrieve_pointer star objs rp r i key = retrieve objs r i key) /\
  (forall p, retrieve objs rp i key = Found p -> retrieve_pointer star objs rp r i key = Found (star p)) /\
  (retrieve objs rp i key = Duplicate -> retrieve_pointer star objs rp r i key = Duplicate).
Proof. exact pointer_spec. Qed.
Print Assumptions C56_pointer_partial.

(** ... so that a datum of the block itself is passed over for one of the root. *)
Theorem C56_pointer_refuted :
  exists toks d, read three toks /\
  parses_to deck_arith no_fun no_eval false toks (new_deck deck_arith "main" "main" bodies) (Accepted _ d) /\
  exists (star : nat -> nat) (rp r : registry nat),
    within (d_objs d) 0 2 /\ holds r 2 "k" 5 /\ ~ held rp 2 "k" /\ ~ held rp 1 "k" /\ star 9 = 8 /\ holds rp 0 "k" 9 /\
    retrieve_pointer star (d_objs d) rp r 2 "k" = Found 8.
Proof. exact pointer_far. Qed.
Print Assumptions C56_pointer_refuted.

(** C75.  Every object has the parameters of its class, each a variable of its block, of the kind
    registered: required and default ones can be assigned to, read-only ones and constants cannot, ... *)
Theorem C75_registered :
  forall A reg funs restricted, typed_functions A funs ->
  forall classes, NoDup (map fst classes) -> typed_classes A classes -> distinct_params A classes ->
  forall root rootclass prog d d', run A reg funs restricted prog (start A (new_deck A root rootclass classes)) = inr d ->
  finish A funs d = Accepted A d' ->
  forall i o, nth_error (d_objs d') i = Some o ->
  exists c l, In (o_class o, c) classes /\ c_impl A c = Some l /\
    (forall n, (exists x m, binds A d' i n x m) <-> In n (map fst l)) /\
    forall n k, In (n, k) l -> exists x m v, binds A d' i n x m /\ declares (d_blocks d') (o_vars o) n x /\
      nth_error (d_vars d') x = Some v /\ param_state A (d_mem d') k m v.
Proof. exact final_registered. Qed.
Print Assumptions C75_registered.

(** ... each with a C++ variable of its own; ... *)
Theorem C75_separate :
  forall A reg funs restricted, typed_functions A funs ->
  forall classes, NoDup (map fst classes) -> typed_classes A classes -> distinct_params A classes ->
  forall root rootclass prog d d', run A reg funs restricted prog (start A (new_deck A root rootclass classes)) = inr d ->
  finish A funs d = Accepted A d' ->
  forall i j n m x y c, binds A d' i n x (Some c) -> binds A d' j m y (Some c) -> i = j /\ n = m /\ x = y.
Proof. exact final_separate. Qed.
Print Assumptions C75_separate.

(** ... evaluating the parameters of a block gives each C++ variable inside it the value of its deck
    variable and changes nothing else, or reports a parameter that is not ready; ... *)
Theorem C75_evaluated :
  forall A reg funs restricted, typed_functions A funs ->
  forall classes, NoDup (map fst classes) -> typed_classes A classes -> distinct_params A classes ->
  forall root rootclass prog d d', run A reg funs restricted prog (start A (new_deck A root rootclass classes)) = inr d ->
  finish A funs d = Accepted A d' ->
  forall i, i < List.length (d_objs d') ->
  (forall d1, evaluate_all A funs i d' = inr d1 ->
     same_but_memory A d' d1 /\
     (forall n v c, receives A d' i n v c -> ready A funs d' v /\ nth_error (d_mem d1) c = Some (v_val v)) /\
     (forall c, (forall n v, ~ receives A d' i n v c) -> nth_error (d_mem d1) c = nth_error (d_mem d') c)) /\
  (forall e, evaluate_all A funs i d' = inl e ->
     e <> EvalUndefined /\
     exists n v c, receives A d' i n v c /\ ~ ready A funs d' v /\ (forall m, e = NotInitialised m -> m = n /\ v_init v = false)).
Proof. exact final_evaluated. Qed.
Print Assumptions C75_evaluated.

(** ... a required parameter is initialised if and only if the deck assigns to it. *)
Theorem C75_required :
  forall A reg funs restricted, typed_functions A funs ->
  forall classes, NoDup (map fst classes) -> typed_classes A classes -> distinct_params A classes ->
  forall root rootclass prog d d', run A reg funs restricted prog (start A (new_deck A root rootclass classes)) = inr d ->
  finish A funs d = Accepted A d' ->
  forall i o c l n t x m v, nth_error (d_objs d') i = Some o -> In (o_class o, c) classes -> c_impl A c = Some l -> In (n, Required A t) l ->
  binds A d' i n x m -> nth_error (d_vars d') x = Some v ->
  (v_init v = true <->
   exists before name e after d1 path, prog = (before ++ SAssign name e :: after)%list /\
     run A reg funs restricted before (start A (new_deck A root rootclass classes)) = inr d1 /\
     components ":"%char name path /\ means (d_blocks d1) (d_cursor d1) path x).
Proof. exact final_required. Qed.
Print Assumptions C75_required.

(** C76.  After [initAll] every container holds its fitting children in order, ... *)
Theorem C76_containers_partial :
  forall objs, linked objs -> forall holder fits St Exn (view : St -> containers) (hook : phase -> nat -> St -> Exn + St),
  container_hooks objs holder fits view hook ->
  forall r i s s' fuel, is_root objs r -> i = r \/ child_of objs r i -> (forall p, view s p = []) ->
  init_all objs hook fuel i s = Some (inr s') ->
  forall p o, within objs r p -> nth_error objs p = Some o -> view s' p = if holder p then filter fits (o_children o) else [].
Proof. exact containers_new. Qed.
Print Assumptions C76_containers_partial.

(** ... but after a second [initAll] it holds each of them twice. *)
Theorem C76_twice_refuted :
  exists objs (hook : phase -> nat -> containers -> unit + containers) cs cs2, linked objs /\ is_root objs 0 /\
  container_hooks objs (fun p => Nat.eqb p 1) (fun _ => true) (fun s => s) hook /\
  init_all objs hook 2 0 (fun _ => []) = Some (inr cs) /\ init_all objs hook 2 0 cs = Some (inr cs2) /\
  cs 1 = [2; 3] /\ cs2 1 = [2; 3; 2; 3].
Proof. exact containers_twice. Qed.
Print Assumptions C76_twice_refuted.
