(** Model of what an input deck creates: the variables and blocks of variables
    (src/variables/variables.{hpp,cpp}), the parameters (blockparameters.hpp), the block classes
    (blockclasses.{hpp,cpp}), the tree of block objects ([BlockTree] of block.cpp), the statements
    of src/parser/parsertoken.cpp, the actions of the grammar (parser/deckgrammar.inc:776-990) and
    [Parser::parse] (parser/parser.cpp:55-102).

    Shared pointers are numbers: variables, blocks of variables, block objects and C++ variables
    bound to parameters are numbered in the order of their creation; nothing is ever deleted. *)
From Coq Require Import ZArith List Bool String Ascii.
From Verif Require Import ScanModel ParseModel ExprModel DepModel.
Import ListNotations.
Local Open Scope Z_scope.

(** ** Strings *)

(** [boost::split(path, name, boost::is_any_of(sep))] — variables.cpp:154-159, 188-193: a name
    without separators gives a list of one element; adjacent separators give empty components. *)
Fixpoint split_at (sep : ascii) (s : string) : string * list string :=
  match s with
  | EmptyString => (EmptyString, [])
  | String c s' => let (h, t) := split_at sep s' in
                   if Ascii.eqb c sep then (EmptyString, h :: t) else (String c h, t)
  end.
Definition split (sep : ascii) (s : string) : list string := let (h, t) := split_at sep s in h :: t.

(** [std::map<std::string, T>]: a list in the order of the keys. *)
Section StringMap.
  Context {X : Type}.
  Fixpoint sfind (m : list (string * X)) (k : string) : option X :=
    match m with
    | [] => None
    | (k', x) :: m' => if String.eqb k k' then Some x else sfind m' k
    end.
  (** [m[k] = x]. *)
  Fixpoint sput (m : list (string * X)) (k : string) (x : X) : list (string * X) :=
    match m with
    | [] => [(k, x)]
    | (k', x') :: m' =>
        match String.compare k k' with
        | Eq => (k, x) :: m'
        | Lt => (k, x) :: (k', x') :: m'
        | Gt => (k', x') :: sput m' k x
        end
    end.
End StringMap.

Section Deck.
  Variable A : arith.

  (** [Variable] — variables.hpp:58-133.  An expression that was never set is a null pointer. *)
  Record vrec := mkVar {
    v_val : value A;
    v_expr : option (expr A);
    v_type : ty;
    v_fixed : bool;
    v_init : bool;
    v_ro : bool;
    v_id : Z
  }.
  (** The constructors — variables.cpp:40-93: with a value... *)
  Definition value_var (v : value A) (init ro : bool) (id : Z) : vrec := mkVar v None (type_of v) true init ro id.
  (** ... and with an expression; then [var] is the first alternative of the variant. *)
  Definition expr_var (e : expr A) (init ro : bool) (id : Z) : vrec := mkVar (VInt 0) (Some e) (etype e) false init ro id.

  (** [BlockVariables] — variables.hpp:147-216.  [children] and [childrenByName] are one list in the
      order of creation: [addChild] keeps the names distinct.  [childrenByClassName] is never read. *)
  Record bvar := mkBlock {
    b_name : string;
    b_class : string;
    b_parent : option nat;
    b_children : list (string * nat);
    b_vars : list (string * nat)
  }.

  (** What a block class with an implementation registers in [initParameters], in this order: the
      calls of [addParameter] and [addConstant] — blockparameters.hpp:167-217.  [m] is the content
      of the C++ variable bound to the parameter before the call. *)
  Inductive pkind :=
  | Required (m : value A)                          (* readwrite, no default *)
  | Default (m v : value A)                         (* readwrite, with default *)
  | ReadOnly (m : value A) (v : option (value A))   (* readonly *)
  | Constant (v : value A).                         (* addConstant *)
  (** [BlockClassDescriptor] — blockclasses.hpp:66-99.  Simplification: [initParameters] of a block
      class is a fixed list of registrations. *)
  Record class := mkClass { c_allowed : list string; c_impl : option (list (string * pkind)) }.

  (** [Parameter] — blockparameters.hpp:73-147; [p_mem] is the bound C++ variable, [None] for a
      [ConstantParameter]. *)
  Record param := mkParam { p_var : nat; p_mem : option nat }.
  (** [Block] — block.hpp:65-131; [o_vars] is the context of its [BlockParameters].  [o_class] is
      the class the object was made for. *)
  Record bobj := mkObj {
    o_name : string;
    o_class : string;
    o_vars : nat;
    o_parent : option nat;
    o_children : list nat;
    o_params : list (string * param)
  }.

  (** Everything a deck can change: the heap; [VariableStorage] (variables.hpp:222-263), whose root
      is block 0; [BlockTree] (block.cpp:33-72); [BlockClasses] (blockclasses.hpp:103-121); the C++
      variables; [Unique<Variable>::runningId]. *)
  Record deck := mkDeck {
    d_vars : list vrec;
    d_blocks : list bvar;
    d_cursor : nat;
    d_objs : list bobj;
    d_root : option nat;
    d_cur : option nat;
    d_depth : list nat;
    d_classes : list (string * class);
    d_mem : list (value A);
    d_nextid : Z
  }.

  Definition set_vars (d : deck) (x : list vrec) : deck :=
    mkDeck x (d_blocks d) (d_cursor d) (d_objs d) (d_root d) (d_cur d) (d_depth d) (d_classes d) (d_mem d) (d_nextid d).
  Definition set_blocks (d : deck) (x : list bvar) (cursor : nat) : deck :=
    mkDeck (d_vars d) x cursor (d_objs d) (d_root d) (d_cur d) (d_depth d) (d_classes d) (d_mem d) (d_nextid d).
  Definition set_tree (d : deck) (objs : list bobj) (root cur : option nat) (depth : list nat) : deck :=
    mkDeck (d_vars d) (d_blocks d) (d_cursor d) objs root cur depth (d_classes d) (d_mem d) (d_nextid d).
  Definition set_classes (d : deck) (x : list (string * class)) : deck :=
    mkDeck (d_vars d) (d_blocks d) (d_cursor d) (d_objs d) (d_root d) (d_cur d) (d_depth d) x (d_mem d) (d_nextid d).
  Definition set_mem (d : deck) (x : list (value A)) : deck :=
    mkDeck (d_vars d) (d_blocks d) (d_cursor d) (d_objs d) (d_root d) (d_cur d) (d_depth d) (d_classes d) x (d_nextid d).
  Definition set_nextid (d : deck) (x : Z) : deck :=
    mkDeck (d_vars d) (d_blocks d) (d_cursor d) (d_objs d) (d_root d) (d_cur d) (d_depth d) (d_classes d) (d_mem d) x.

  Fixpoint update_nth {X : Type} (l : list X) (n : nat) (x : X) : list X :=
    match l, n with
    | [], _ => []
    | _ :: l', O => x :: l'
    | y :: l', S n' => y :: update_nth l' n' x
    end.

  (** ** Blocks of variables *)

  (** [getVariable(path, false)] — variables.cpp:161-186 without the upward step.  [None]:
      [VariableNotFoundException]. *)
  Fixpoint get_down (bs : list bvar) (b : nat) (path : list string) : option nat :=
    match nth_error bs b with
    | None => None
    | Some blk =>
        match path with
        | [] => None
        | [name] => sfind (b_vars blk) name
        | name :: path' =>
            match sfind (b_children blk) name with
            | Some c => get_down bs c path'
            | None => None
            end
        end
    end.
  (** [getVariable(path, true)] — variables.cpp:161-186.  [n] bounds the number of enclosing
      blocks; a block is created after its parent, so [b] is large enough for block [b]. *)
  Fixpoint get_up (n : nat) (bs : list bvar) (b : nat) (path : list string) : option nat :=
    match nth_error bs b with
    | None => None
    | Some blk =>
        let up := match n, b_parent blk with
                  | S n', Some p => get_up n' bs p path
                  | _, _ => None
                  end in
        match path with
        | [] => None
        | [name] => match sfind (b_vars blk) name with Some x => Some x | None => up end
        | name :: path' =>
            match sfind (b_children blk) name with
            | Some c => get_down bs c path'
            | None => up
            end
        end
    end.
  (** [getVariable(name)] — variables.cpp:188-193. *)
  Definition get_variable (bs : list bvar) (b : nat) (name : string) : option nat :=
    get_up b bs b (split ":" name).

  (** [exists(path, upward)] — variables.cpp:131-152.  [None]: a null pointer is dereferenced (the
      test for a parent is inverted). *)
  Fixpoint exists_path (bs : list bvar) (b : nat) (path : list string) (upward : bool) : option bool :=
    match nth_error bs b with
    | None => None
    | Some blk =>
        let last := if upward then match b_parent blk with None => None | Some _ => Some false end else Some false in
        match path with
        | [] => None
        | [name] => match sfind (b_vars blk) name with Some _ => Some true | None => last end
        | name :: path' =>
            match sfind (b_children blk) name with
            | Some c => exists_path bs c path' false
            | None => last
            end
        end
    end.
  (** [exists(name)] — variables.cpp:154-159. *)
  Definition exists_variable (bs : list bvar) (b : nat) (name : string) : option bool :=
    exists_path bs b (split "." name) true.

  (** [BlockVariables::addVariable] — variables.cpp:195-200. *)
  Definition block_add (bs : list bvar) (b : nat) (name : string) (x : nat) : option (list bvar) :=
    match nth_error bs b with
    | None => None
    | Some blk =>
        match sfind (b_vars blk) name with
        | Some _ => None
        | None => Some (update_nth bs b (mkBlock (b_name blk) (b_class blk) (b_parent blk) (b_children blk) (sput (b_vars blk) name x)))
        end
    end.

  (** [VariableStorage::createBlock] with [BlockVariables::addChild] — variables.cpp:202-209,
      241-248.  [None]: [DuplicateBlockException]. *)
  Definition create_block (d : deck) (name cls : string) : option deck :=
    match nth_error (d_blocks d) (d_cursor d) with
    | None => None
    | Some blk =>
        match sfind (b_children blk) name with
        | Some _ => None
        | None =>
            let n := List.length (d_blocks d) in
            Some (set_blocks d
              (update_nth (d_blocks d) (d_cursor d)
                 (mkBlock (b_name blk) (b_class blk) (b_parent blk) (b_children blk ++ [(name, n)]) (b_vars blk))
               ++ [mkBlock name cls (Some (d_cursor d)) [] []]) n)
        end
    end.

  (** ** The tree of block objects *)

  (** [BlockTree::addChild] — block.cpp:35-47; the object is the last one made. *)
  Definition tree_add (d : deck) (o : nat) : deck :=
    let objs := match d_cur d with
                | None => d_objs d
                | Some c =>
                    match nth_error (d_objs d) c, nth_error (d_objs d) o with
                    | Some oc, Some oo =>
                        update_nth
                          (update_nth (d_objs d) c (mkObj (o_name oc) (o_class oc) (o_vars oc) (o_parent oc) (o_children oc ++ [o]) (o_params oc)))
                          o (mkObj (o_name oo) (o_class oo) (o_vars oo) (Some c) (o_children oo) (o_params oo))
                    | _, _ => d_objs d
                    end
                end in
    set_tree d objs (match d_root d with Some r => Some r | None => Some o end) (Some o) (0%nat :: d_depth d).
  (** [BlockTree::moveDown] — block.cpp:49-53. *)
  Definition tree_down (d : deck) : deck :=
    set_tree d (d_objs d) (d_root d) (d_cur d) (match d_depth d with [] => [] | n :: l => S n :: l end).
  (** [BlockTree::moveUp] — block.cpp:55-72.  [None]: a null pointer is dereferenced. *)
  Definition tree_up (d : deck) : option deck :=
    match d_depth d with
    | [] => Some d
    | O :: l =>
        match d_cur d with
        | None => None
        | Some c => match nth_error (d_objs d) c with
                    | None => None
                    | Some oc => Some (set_tree d (d_objs d) (d_root d) (o_parent oc) l)
                    end
        end
    | S n :: l => Some (set_tree d (d_objs d) (d_root d) (d_cur d) (n :: l))
    end.

  (** ** Block classes *)

  (** [BlockClasses::get] — blockclasses.cpp:62-68: unknown classes are registered. *)
  Definition get_class (d : deck) (cls : string) : class * deck :=
    match sfind (d_classes d) cls with
    | Some c => (c, d)
    | None => let c := mkClass [] None in (c, set_classes d (sput (d_classes d) cls c))
    end.
  (** [BlockClasses::hasChild] — blockclasses.cpp:70-77.  [None]: [BlockNotFoundException]. *)
  Definition has_child (d : deck) (parent child : string) : option bool :=
    match sfind (d_classes d) parent with
    | None => None
    | Some c => Some (existsb (String.eqb child) (c_allowed c))
    end.

  (** ** Parameters *)

  (** [T()] for the type of a value. *)
  Definition zero_like (m : value A) : value A :=
    match m with VInt _ => VInt 0 | VFloat _ => VFloat (f_of_int A 0) | VStr _ => VStr EmptyString end.

  (** One call of [addParameter] or [addConstant] on the parameters of object [o] with context [b]:
      the C++ variable and the [Variable] are made, the variable is added to the block (the result
      of [addVariable] is ignored), the parameter is entered in the map —
      blockparameters.hpp:167-217. *)
  Definition add_param (b : nat) (d : deck) (p : string * pkind) : deck * (string * param) :=
    let (name, k) := p in
    let m := List.length (d_mem d) in
    let x := List.length (d_vars d) in
    let var := match k with
               | Required m0 => value_var (zero_like m0) false false (d_nextid d)
               | Default _ v => value_var v true false (d_nextid d)
               | ReadOnly m0 _ => expr_var (EExt (type_of m0) m) true true (d_nextid d)
               | Constant v => value_var v true true (d_nextid d)
               end in
    let mem := match k with
               | Required m0 | Default m0 _ | ReadOnly m0 None => d_mem d ++ [m0]
               | ReadOnly _ (Some v) => d_mem d ++ [v]
               | Constant _ => d_mem d
               end in
    let blocks := match block_add (d_blocks d) b name x with Some bs => bs | None => d_blocks d end in
    (set_nextid (set_mem (set_blocks (set_vars d (d_vars d ++ [var])) blocks (d_cursor d)) mem) (d_nextid d + 1),
     (name, mkParam x (match k with Constant _ => None | _ => Some m end))).

  Fixpoint add_params (b : nat) (d : deck) (l : list (string * pkind)) (ps : list (string * param)) : deck * list (string * param) :=
    match l with
    | [] => (d, ps)
    | p :: l' => let (d', np) := add_param b d p in add_params b d' l' (sput ps (fst np) (snd np))
    end.

  (** [makeBlock(name)], [setContext(current block)], [setup()], [blockTree->addChild] or
      [moveDown] — parsertoken.cpp:429-440, parser.cpp:70-81; [Block::setup] — block.cpp:84-92 (a
      new block has no children). *)
  Definition make_object (d : deck) (name cls : string) : deck :=
    let (c, d) := get_class d cls in
    match c_impl c with
    | None => tree_down d
    | Some l =>
        let b := d_cursor d in
        let (d', ps) := add_params b d l [] in
        let o := List.length (d_objs d') in
        tree_add (set_tree d' (d_objs d' ++ [mkObj name cls b None [] ps]) (d_root d') (d_cur d') (d_depth d')) o
    end.

  (** ** Statements *)

  (** [ParserToken] — parsertoken.hpp:66-119.  The context is the same for all tokens but the
      default-constructed one, whose context is never used; [var] is only used within
      [storeVariable].  An unset [data] holds a null pointer. *)
  Inductive ptype := Pstatement | Pexpression | Pexpressionlist | Pint | Pfloat | Pstring | Patom | Pnone.
  Inductive ptoken := PTok (a : token) (t : ptype) (e : option (expr A)) (chain : option ptoken).
  Definition p_atom (p : ptoken) : token := match p with PTok a _ _ _ => a end.
  Definition p_type (p : ptoken) : ptype := match p with PTok _ t _ _ => t end.
  Definition p_data (p : ptoken) : option (expr A) := match p with PTok _ _ e _ => e end.
  Definition p_chain (p : ptoken) : option ptoken := match p with PTok _ _ _ c => c end.
  Definition text (p : ptoken) : string := string_of_list_ascii (t_text (p_atom p)).
  (** [ParserToken()] and [ParserToken(tok, context)] — parsertoken.cpp:48-58. *)
  Definition no_token : ptoken := PTok (mkTok 0 0 []) Pnone None None.
  Definition of_token (a : token) : ptoken := PTok a Patom None None.

  (** Why an action fails.  [ParserErr]: [ParserError] at a token; the others escape as they are. *)
  Inductive reason :=
  | NotAnAtom | NotTheRightAtom | UnknownVariable | NotAnExpression | EmptyExpression | Redeclaration
  | NotDeclared | AssignedReadOnly | WrongType | BlockNotAllowed | DuplicateBlock | UnknownClass | ExtraBrace | Confused.
  Inductive failure :=
  | ParserErr (r : reason) (at_tok : token)
  | NoSuchFunction                (* FunctionNotFoundException *)
  | WrongNumberOfArgs             (* WrongNumberOfArgsException *)
  | BadLexicalCast                (* boost::bad_lexical_cast *)
  | BadVariantGet                 (* boost::bad_get *)
  | CastFailed                    (* TypeCastException *)
  | TypeMismatch                  (* TypeMismatchException *)
  | UndefinedBehaviour.

  (** Registered functions, their behaviour, and [BlockClasses::restrictBlocks()]. *)
  Variable reg : string -> option fsig.
  Variable funs : fsig -> list (value A) -> result (value A).
  Variable restricted : bool.

  (** What expressions read.  A number that is no variable has an id that is not in use. *)
  Definition var_at (d : deck) (x : nat) : vrec := nth x (d_vars d) (mkVar (VInt 0) None TInt false false false (-2)).
  Definition store_of (d : deck) : store A :=
    mkStore A (fun x => v_val (var_at d x)) (fun x => v_fixed (var_at d x)) 
      (fun x => match nth_error (d_vars d) x with Some v => v_id v | None => d_nextid d + Z.of_nat x end)
      (fun m => nth m (d_mem d) (VInt 0)) funs.

  Definition act_result := (failure + (ptoken * deck))%type.
  Definition fail (f : failure) : act_result := inl f.

  (** The test [getType() != atom], [getToken() != code] of the [assign...] functions. *)
  Definition check_atom (p : ptoken) (code : Z) (at_tok : token) (k : act_result) : act_result :=
    match p_type p with
    | Patom => if t_code (p_atom p) =? code then k else fail (ParserErr NotTheRightAtom at_tok)
    | _ => fail (ParserErr NotAnAtom at_tok)
    end.
  Definition of_built (p : ptoken) (t : ptype) (d : deck) (b : built (expr A)) : act_result :=
    match b with
    | Built e => inr (PTok (p_atom p) t (Some e) None, d)
    | Failed UndefinedVariable => fail (ParserErr UnknownVariable (p_atom p))
    | Failed UndefinedFunction => fail NoSuchFunction
    | Failed WrongArity => fail WrongNumberOfArgs
    | Failed BadLiteral => fail BadLexicalCast
    | Failed BadVariant => fail BadVariantGet
    end.

  (** [assignInteger], [assignFloat], [assignString], [assignIdentifier] —
      parsertoken.cpp:91-185. *)
  Definition act_integer (p : ptoken) (d : deck) : act_result :=
    check_atom p INTEGER (p_atom p) (of_built p Pint d (assign_integer (text p))).
  Definition act_float (p : ptoken) (d : deck) : act_result :=
    check_atom p FLOAT (p_atom p) (of_built p Pfloat d (assign_float (text p))).
  Definition act_string (p : ptoken) (d : deck) : act_result :=
    check_atom p STRING (p_atom p) (of_built p Pstring d (assign_string (text p))).
  Definition lookup (d : deck) (name : string) : option (nat * ty) :=
    match get_variable (d_blocks d) (d_cursor d) name with
    | Some x => Some (x, v_type (var_at d x))
    | None => None
    end.
  Definition act_identifier (p : ptoken) (d : deck) : act_result :=
    check_atom p IDENTIFIER (p_atom p) (of_built p Pexpression d (assign_identifier (lookup d) (text p))).

  (** [assignUnaryOperator], [assignBinaryOperator] — parsertoken.t:182-204.  Applying an operator
      to a null expression gives an expression that dereferences it later; no expression token
      has one. *)
  Definition act_unary (o : unop) (p : ptoken) (d : deck) : act_result :=
    match p_data p with
    | Some e => inr (PTok (p_atom p) Pexpression (Some (assign_unary o e)) None, d)
    | None => fail UndefinedBehaviour
    end.
  Definition act_binary (o : bop) (p q : ptoken) (d : deck) : act_result :=
    match p_data p, p_data q with
    | Some e, Some f => of_built p Pexpression d (match assign_binary o e f with Some g => Built g | None => Failed BadVariant end)
    | _, _ => fail UndefinedBehaviour
    end.

  (** [append] — parsertoken.cpp:84-89. *)
  Definition append (p q : ptoken) : ptoken := PTok (p_atom p) (p_type p) (p_data p) (Some q).

  (** [makeExpressionList] — parsertoken.cpp:188-194. *)
  Definition act_list (p : ptoken) (d : deck) : act_result :=
    match p_type p with
    | Pexpression => inr (PTok (p_atom p) Pexpressionlist (p_data p) (p_chain p), d)
    | _ => fail (ParserErr NotAnExpression (p_atom p))
    end.

  (** [assignFunction] — parsertoken.cpp:196-230: the arguments are collected from the chain, the
      newest first. *)
  Fixpoint chain_data (p : ptoken) : option (list (expr A)) :=
    match p with
    | PTok _ _ (Some e) None => Some [e]
    | PTok _ _ (Some e) (Some q) => match chain_data q with Some l => Some (e :: l) | None => None end
    | _ => None
    end.
  Definition act_function (name p : ptoken) (d : deck) : act_result :=
    match chain_data p with
    | Some l => of_built p Pexpression d (assign_function reg (text name) l)
    | None => fail UndefinedBehaviour
    end.
  Definition act_function0 (name : ptoken) (d : deck) : act_result :=
    of_built name Pexpression d (assign_function reg (text name) []).

  (** [evaluateVisitor] — parsertoken.cpp:232-256: a new variable, with the value of a constant
      expression or with the expression. *)
  Definition evaluate_new (d : deck) (tok : token) (data : option (expr A)) : failure + vrec :=
    match data with
    | None => inl (ParserErr EmptyExpression tok)
    | Some e =>
        if is_constant (store_of d) e
        then match eval (store_of d) e with
             | Ok v => inr (value_var v true false (d_nextid d))
             | BadCast => inl CastFailed
             | BadGet => inl BadVariantGet
             | Undefined => inl UndefinedBehaviour
             end
        else inr (expr_var e true false (d_nextid d))
    end.

  (** [evaluateExpression] (the token) — parsertoken.cpp:258-269. *)
  Definition act_assignment (p e : ptoken) (d : deck) : act_result :=
    check_atom p IDENTIFIER (p_atom p) (inr (PTok (p_atom p) Pstatement (p_data e) None, d)).

  (** [ensureVariable] — parsertoken.cpp:345-405.  The branch for [type == atom] replaces the
      variable by a new one. *)
  Definition type_code (t : ty) : Z := match t with TInt => INT_DECL | TFloat => FLOAT_DECL | TString => STRING_DECL end.
  Definition zero_var (code id : Z) : option vrec :=
    if code =? INT_DECL then Some (value_var (VInt 0) true false id)
    else if code =? FLOAT_DECL then Some (value_var (VFloat (f_of_int A 0)) true false id)
    else if code =? STRING_DECL then Some (value_var (VStr EmptyString) true false id) else None.
  Definition ensure_variable (p decl : ptoken) (v : vrec) (id : Z) : failure + vrec :=
    let c := t_code (p_atom decl) in
    match p_type decl with
    | Patom =>
        match p_type p with
        | Pstatement =>
            if (c =? INT_DECL) || (c =? FLOAT_DECL) || (c =? STRING_DECL)
            then if c =? type_code (v_type v) then inr v else inl (ParserErr WrongType (p_atom decl))
            else inl (ParserErr WrongType (p_atom decl))
        | Patom =>
            if t_code (p_atom p) =? IDENTIFIER
            then match zero_var c id with Some w => inr w | None => inl (ParserErr WrongType (p_atom decl)) end
            else inl (ParserErr NotTheRightAtom (p_atom p))
        | _ => inl (ParserErr Confused (p_atom p))
        end
    | _ => inl (ParserErr NotAnAtom (p_atom decl))
    end.

  (** [storeVariable] — parsertoken.cpp:283-305, with [VariableStorage::addVariable] —
      variables.cpp:235-239.  The last declaration of a list is stored first. *)
  Fixpoint store_variable (p decl : ptoken) (d : deck) : act_result :=
    match evaluate_new d (p_atom p) (p_data p) with
    | inl f => fail f
    | inr v =>
        match ensure_variable p decl v (d_nextid d + 1) with
        | inl f => fail f
        | inr w =>
            match block_add (d_blocks d) (d_cursor d) (text p) (List.length (d_vars d)) with
            | None => fail (ParserErr Redeclaration (p_atom p))
            | Some bs =>
                let d' := set_nextid (set_blocks (set_vars d (d_vars d ++ [w])) bs (d_cursor d)) (v_id w + 1) in
                match p with
                | PTok _ _ _ (Some q) => store_variable q decl d'
                | PTok _ _ _ None => inr (no_token, d')
                end
            end
        end
    end.

  (** [updateVariable] — parsertoken.cpp:307-343, with [Variable::operator=] —
      variables.cpp:106-116. *)
  Definition update_variable (p : ptoken) (d : deck) : act_result :=
    match get_variable (d_blocks d) (d_cursor d) (text p) with
    | None => fail (ParserErr NotDeclared (p_atom p))
    | Some x =>
        let old := var_at d x in
        let target := if v_fixed old then Some (type_of (v_val old))
                      else match v_expr old with Some e => Some (etype e) | None => None end in
        match target, p_data p with
        | Some t, Some e =>
            match evaluate_new d (p_atom p) (Some (promote_assign t e)) with
            | inl f => fail f
            | inr v =>
                if negb (ty_eqb (v_type old) (v_type v)) then fail TypeMismatch
                else if v_ro old then fail (ParserErr AssignedReadOnly (p_atom p))
                else inr (no_token,
                          set_nextid (set_vars d (update_nth (d_vars d) x
                            (mkVar (v_val v) (v_expr v) (v_type old) (v_fixed v) (v_init v) (v_ro old) (v_id v))))
                            (d_nextid d + 1))
            end
        | _, _ => fail UndefinedBehaviour
        end
    end.

  (** [createBlock] — parsertoken.cpp:407-450. *)
  Definition act_block (cls name : ptoken) (d : deck) : act_result :=
    check_atom cls IDENTIFIER (p_atom cls) (check_atom name IDENTIFIER (p_atom cls)
      (match nth_error (d_blocks d) (d_cursor d) with
       | None => fail UndefinedBehaviour
       | Some cur =>
           let go := match create_block d (text name) (text cls) with
                     | None => fail (ParserErr DuplicateBlock (p_atom name))
                     | Some d' => inr (no_token, make_object d' (text name) (text cls))
                     end in
           if restricted then
             match has_child d (b_class cur) (text cls) with
             | None => fail (ParserErr UnknownClass (p_atom name))
             | Some false => fail (ParserErr BlockNotAllowed (p_atom name))
             | Some true => go
             end
           else go
       end)).

  (** [endBlock] — parsertoken.cpp:452-460, with [VariableStorage::cursorUp] —
      variables.cpp:229-233. *)
  Definition act_end (p : ptoken) (d : deck) : act_result :=
    match nth_error (d_blocks d) (d_cursor d) with
    | None => fail UndefinedBehaviour
    | Some cur =>
        match b_parent cur with
        | None => fail (ParserErr ExtraBrace (p_atom p))
        | Some b => match tree_up (set_blocks d (d_blocks d) b) with
                    | Some d' => inr (no_token, d')
                    | None => fail UndefinedBehaviour
                    end
        end
    end.

  (** The actions of the productions — deckgrammar.inc:776-990; the arguments are the values of the
      symbols of the right-hand side.  Productions without an action leave the default token. *)
  Definition action (r : nat) (vs : list ptoken) (d : deck) : act_result :=
    match r, vs with
    | 3%nat, [decl; l; _] => store_variable l decl d
    | 4%nat, [a; _] => update_variable a d
    | 7%nat, [b] => act_end b d
    | 9%nat, [c; n; _] => act_block c n d
    | 10%nat, [c; _] => act_block c c d
    | 11%nat, [l; _; p] => inr (append p l, d)
    | 16%nat, [p; _; e] => act_assignment p e d
    | 17%nat, [p; _; q] | 20%nat, [p; _; q] => act_binary OAdd p q d
    | 18%nat, [p; _; q] | 21%nat, [p; _; q] => act_binary OSub p q d
    | 12%nat, [p] | 13%nat, [p] | 14%nat, [p] | 19%nat, [p] | 22%nat, [p] | 25%nat, [p]
    | 28%nat, [p] | 30%nat, [p] | 33%nat, [p] | 45%nat, [p] | 46%nat, [p] | 47%nat, [p] => inr (p, d)
    | 23%nat, [_; p] | 31%nat, [_; p] => inr (p, d)
    | 24%nat, [_; p] | 32%nat, [_; p] => act_unary ONeg p d
    | 26%nat, [p; _; q] => act_binary OMul p q d
    | 27%nat, [p; _; q] => act_binary ODiv p q d
    | 29%nat, [p; _; q] => act_binary OExp p q d
    | 34%nat, [_; p; _] => act_unary OId p d
    | 35%nat, [f; _; l; _] => act_function f l d
    | 36%nat, [f; _; _] => act_function0 f d
    | 37%nat, [p] => act_unary OId p d
    | 38%nat, [l; _; p] => inr (append p l, d)
    | 39%nat, [p] => act_list p d
    | 40%nat, [p] | 41%nat, [p] => act_identifier p d
    | 42%nat, [p] => act_integer p d
    | 43%nat, [p] => act_float p d
    | 44%nat, [p] => act_string p d
    | 0%nat, [_] | 1%nat, [_; _] | 2%nat, [_] | 5%nat, [_; _; _] | 6%nat, [_] | 8%nat, [_] | 15%nat, [_] => inr (no_token, d)
    | _, _ => fail UndefinedBehaviour
    end.

  (** ** [Parser::parse] — parser.cpp:55-102 *)

  Definition tokens (toks : list token) : list (Z * ptoken) := map (fun a => (t_code a, of_token a)) toks.

  (** A new [BlockTree], and the object of the root block. *)
  Definition start (d : deck) : deck :=
    let d := set_tree d (d_objs d) None None [] in
    match nth_error (d_blocks d) 0 with
    | None => d
    | Some r => make_object d (b_name r) (b_class r)
    end.

  (** The blocks below block [b], as the dependency map visits them.  [n] bounds the depth; a block
      is created after its parent, so the number of blocks is large enough. *)
  Fixpoint bvars_of (n : nat) (bs : list bvar) (b : nat) : bvars :=
    match nth_error bs b with
    | None => BVars [] []
    | Some blk =>
        BVars (map snd (b_vars blk))
          (match n with O => [] | S n' => map (fun c => bvars_of n' bs (snd c)) (b_children blk) end)
    end.
  Definition exprs_of (d : deck) (x : nat) : expr A :=
    match v_expr (var_at d x) with Some e => e | None => EValue (VInt 0) end.

  (** What becomes of a deck. *)
  Inductive ended :=
  | Accepted (d : deck)                (* the deck is returned *)
  | Rejected (f : failure)             (* an exception *)
  | SyntaxErr (at_tok : token)         (* ParserError "Syntax Error" *)
  | InternalErr                        (* ParserInternalError escapes *)
  | DuplicateId                        (* SchnekException of the dependency map *)
  | AssertFailed                       (* a failing assertion of the dependency map or the parser *)
  | Crashed                            (* undefined behaviour *)
  | NotYet.                            (* more fuel needed *)

  (** [DependencyMap depMap(root); depMap.updateAll()] — parser.cpp:97-98.  The auxiliary variable of
      the map (dependencies.cpp:46-62) has the number and the id after all others and is a new int
      [ExternalValue]. *)
  Definition with_dummy (d : deck) : deck :=
    set_nextid (set_mem (set_vars d (d_vars d ++ [expr_var (EExt TInt (List.length (d_mem d))) true true (d_nextid d)]))
      (d_mem d ++ [VInt 0])) (d_nextid d + 1).
  Definition restore (d : deck) (st : store A) : list vrec :=
    map (fun x => let v := var_at d x in mkVar (s_val st x) (v_expr v) (v_type v) (v_fixed v) (v_init v) (v_ro v) (v_id v))
        (seq 0 (List.length (d_vars d))).
  Definition finish (d : deck) : ended :=
    let d' := with_dummy d in
    match dep_map A (exprs_of d') (store_of d') (List.length (d_vars d)) (bvars_of (List.length (d_blocks d)) (d_blocks d) 0) with
    | None => DuplicateId
    | Some m =>
        match update_all A (exprs_of d') m (store_of d') with
        | None => AssertFailed
        | Some (_, Ok st) => Accepted (set_nextid (set_vars d (restore d st)) (d_nextid d'))
        | Some (_, _) => Crashed
        end
    end.

  Definition parse_deck (fuel : nat) (toks : list token) (d : deck) : ended :=
    match parse no_token action YYSTACKDEPTH fuel (tokens toks) (start d) with
    | Finished d' => finish d'
    | ActionError UndefinedBehaviour => Crashed
    | ActionError f => Rejected f
    | SyntaxError p => SyntaxErr (p_atom p)
    | EscapedInternalError => InternalErr
    | Aborted | EnteredRecovery => AssertFailed
    | OutOfFuel => NotYet
    end.

  (** A new [Parser] — parser.hpp: an empty root block of the given name and class. *)
  Definition new_deck (name cls : string) (classes : list (string * class)) : deck :=
    mkDeck [] [mkBlock name cls None [] []] 0 [] None None [] classes [] 0.
End Deck.

Arguments v_val {A} v. Arguments v_expr {A} v. Arguments v_type {A} v. Arguments v_fixed {A} v.
Arguments v_init {A} v. Arguments v_ro {A} v. Arguments v_id {A} v.
Arguments d_vars {A} d. Arguments d_blocks {A} d. Arguments d_cursor {A} d. Arguments d_objs {A} d.
Arguments d_root {A} d. Arguments d_cur {A} d. Arguments d_depth {A} d. Arguments d_classes {A} d.
Arguments d_mem {A} d. Arguments d_nextid {A} d.
