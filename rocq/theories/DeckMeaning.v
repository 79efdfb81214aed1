(** What the statements of an input deck do, one by one, without tokens, tables or a parser stack.
    The vocabulary (looking a name up, adding a variable to a block, making a block object, ...) is
    that of [DeckModel]; expressions are built as in [ExprBuildModel]. *)
From Coq Require Import ZArith List Bool String Ascii.
From Verif Require Import ScanModel ParseModel ExprModel ExprSyntax ExprBuildModel DepModel DeckModel DeckSyntax.
Import ListNotations.
Local Open Scope Z_scope.

Section Meaning.
  Variable A : arith.
  Variable reg : string -> option fsig.
  Variable funs : fsig -> list (value A) -> result (value A).
  Variable restricted : bool.
  Notation deck := (deck A).

  (** Failures, without the token they are reported at. *)
  Definition nowhere : token := mkTok 0 0 [].
  Definition error (r : reason) : failure := ParserErr r nowhere.
  Definition forget (f : failure) : failure := match f with ParserErr r _ => error r | f => f end.
  Definition bind {X Y : Type} (x : failure + X) (f : X -> failure + Y) : failure + Y :=
    match x with inl e => inl e | inr a => f a end.

  (** The expression written, with the names as seen from the current block. *)
  Definition build_failure (e : build_error) : failure :=
    match e with
    | UndefinedVariable => error UnknownVariable
    | UndefinedFunction => NoSuchFunction
    | WrongArity => WrongNumberOfArgs
    | BadLiteral => BadLexicalCast
    | BadVariant => BadVariantGet
    end.
  Definition expression (d : deck) (e : sum) : failure + expr A :=
    match build_sum A (lookup A d) reg e with Built x => inr x | Failed x => inl (build_failure x) end.

  (** A new variable: the value of an expression without variables that can change, or else the
      expression itself. *)
  Definition content (d : deck) (e : expr A) : failure + vrec A :=
    if is_constant (store_of A funs d) e
    then match eval (store_of A funs d) e with
         | Ok v => inr (value_var A v true false (d_nextid d))
         | BadCast => inl CastFailed
         | BadGet => inl BadVariantGet
         | Undefined => inl UndefinedBehaviour
         end
    else inr (expr_var A e true false (d_nextid d)).

  (** One declaration, after its expression has been built. *)
  Definition declare (t : ty) (d : deck) (x : string * option (expr A)) : failure + deck :=
    match snd x with
    | None => inl (error EmptyExpression)
    | Some e =>
        bind (content d e) (fun v =>
        if ty_eqb t (v_type v)
        then match block_add (d_blocks d) (d_cursor d) (fst x) (List.length (d_vars d)) with
             | None => inl (error Redeclaration)
             | Some bs => inr (set_nextid A (set_blocks A (set_vars A d (d_vars d ++ [v])) bs (d_cursor d)) (d_nextid d + 1))
             end
        else inl (error WrongType))
    end.
  Fixpoint expressions (d : deck) (l : list decl) : failure + list (string * option (expr A)) :=
    match l with
    | [] => inr []
    | (x, None) :: l' => bind (expressions d l') (fun r => inr ((x, None) :: r))
    | (x, Some e) :: l' => bind (expression d e) (fun y => bind (expressions d l') (fun r => inr ((x, Some y) :: r)))
    end.
  Fixpoint declare_all (t : ty) (d : deck) (l : list (string * option (expr A))) : failure + deck :=
    match l with
    | [] => inr d
    | x :: l' => bind (declare t d x) (fun d' => declare_all t d' l')
    end.

  (** An assignment, after its expression has been built. *)
  Definition assign (d : deck) (name : string) (e : expr A) : failure + deck :=
    match get_variable (d_blocks d) (d_cursor d) name with
    | None => inl (error NotDeclared)
    | Some x =>
        let old := var_at A d x in
        let target := if v_fixed old then Some (type_of (v_val old))
                      else match v_expr old with Some e => Some (etype e) | None => None end in
        match target with
        | None => inl UndefinedBehaviour
        | Some t =>
            bind (content d (promote_assign t e)) (fun v =>
            if negb (ty_eqb (v_type old) (v_type v)) then inl TypeMismatch
            else if v_ro old then inl (error AssignedReadOnly)
            else inr (set_nextid A (set_vars A d (update_nth (d_vars d) x
                        (mkVar A (v_val v) (v_expr v) (v_type old) (v_fixed v) (v_init v) (v_ro old) (v_id v))))
                        (d_nextid d + 1)))
        end
    end.

  (** The beginning and the end of a block. *)
  Definition open_block (d : deck) (cls name : string) : failure + deck :=
    match nth_error (d_blocks d) (d_cursor d) with
    | None => inl UndefinedBehaviour
    | Some cur =>
        let go := match create_block A d name cls with
                  | None => inl (error DuplicateBlock)
                  | Some d' => inr (make_object A d' name cls)
                  end in
        if restricted then
          match has_child A d (b_class cur) cls with
          | None => inl (error UnknownClass)
          | Some false => inl (error BlockNotAllowed)
          | Some true => go
          end
        else go
    end.
  Definition close_block (d : deck) : failure + deck :=
    match nth_error (d_blocks d) (d_cursor d) with
    | None => inl UndefinedBehaviour
    | Some cur =>
        match b_parent cur with
        | None => inl (error ExtraBrace)
        | Some b => match tree_up A (set_blocks A d (d_blocks d) b) with Some d' => inr d' | None => inl UndefinedBehaviour end
        end
    end.

  (** The effect of a statement.  The expressions of a declaration are built from first to last, the
      variables are made from last to first. *)
  Definition exec (s : statement) (d : deck) : failure + deck :=
    match s with
    | SDecl t x rest => bind (expressions d (x :: rest)) (fun l => declare_all t d (rev l))
    | SAssign x e => bind (expression d e) (assign d x)
    | SInclude _ => inr d
    | SOpen c (Some n) => open_block d c n
    | SOpen c None => open_block d c c
    | SClose => close_block d
    end.
  (** The effect of a deck. *)
  Fixpoint run (p : list statement) (d : deck) : failure + deck :=
    match p with
    | [] => inr d
    | s :: p' => bind (exec s d) (run p')
    end.
End Meaning.
