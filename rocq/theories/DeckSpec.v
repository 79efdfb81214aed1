(** What a reader of a deck expects of its blocks and variables: enclosing blocks, declarations,
    paths, histories of statements.  No lookup function of the model is used. *)
From Coq Require Import ZArith List Bool String Ascii Relations.
From Verif Require Import ScanModel ParseModel ExprModel ExprSyntax DepModel DepSpec DeckModel DeckSyntax DeckMeaning.
Import ListNotations.
Local Open Scope nat_scope.

(** ** Blocks and names *)

(** [l] lists block [b], the block around it, ..., the root. *)
Inductive enclosing (bs : list bvar) : nat -> list nat -> Prop :=
| enc_root b blk : nth_error bs b = Some blk -> b_parent blk = None -> enclosing bs b [b]
| enc_in b blk p l : nth_error bs b = Some blk -> b_parent blk = Some p -> enclosing bs p l -> enclosing bs b (b :: l).

(** Block [b] declares variable [x] under this name. *)
Definition declares (bs : list bvar) (b : nat) (name : string) (x : nat) : Prop :=
  exists blk, nth_error bs b = Some blk /\ In (name, x) (b_vars blk).
(** Block [c] of this name is directly inside block [b]. *)
Definition contains (bs : list bvar) (b : nat) (name : string) (c : nat) : Prop :=
  exists blk, nth_error bs c = Some blk /\ b_parent blk = Some b /\ b_name blk = name.

(** Following a path [block:block:...:variable] from a block. *)
Inductive leads (bs : list bvar) : nat -> list string -> nat -> Prop :=
| leads_here b name x : declares bs b name x -> leads bs b [name] x
| leads_in b name c path x : contains bs b name c -> leads bs c path x -> leads bs b (name :: path) x.

(** The components of a name separated by a character. *)
Definition free_of (sep : ascii) (s : string) : Prop := forall a c b, list_ascii_of_string s = a ++ c :: b -> c <> sep.
Definition components (sep : ascii) (name : string) (path : list string) : Prop :=
  path <> [] /\ Forall (free_of sep) path /\ name = String.concat (String sep EmptyString) path.

(** The first block of a list with a property. *)
Definition nearest (l : list nat) (P : nat -> Prop) (c : nat) : Prop :=
  exists before after, l = before ++ c :: after /\ P c /\ forall b, In b before -> ~ P b.

(** What a name means in block [b]: a plain name means the variable of the nearest enclosing block
    that declares it; a path starts in the nearest enclosing block that has a block of the first
    name. *)
Definition means (bs : list bvar) (b : nat) (path : list string) (x : nat) : Prop :=
  match path with
  | [] => False
  | [name] => exists l c, enclosing bs b l /\ nearest l (fun c => exists y, declares bs c name y) c /\ declares bs c name x
  | name :: path' => exists l c s, enclosing bs b l /\ nearest l (fun c => exists s, contains bs c name s) c /\
                                   contains bs c name s /\ leads bs s path' x
  end.

(** ** Texts *)
(** The tokens of a text ([Scanner::getTokens] after [scan] returns). *)
Definition read (text : string) (toks : list token) : Prop :=
  exists fuel flag, scan fuel (list_ascii_of_string text) = Some (toks, flag).

(** What a list of tokens is read as by a parser with a stack for 100 symbols: the statements written,
    except for stretches of at least 99 tokens within statements that the stack is too small for. *)
Inductive reads_as : list token -> list statement -> Prop :=
| ra_written toks p : written toks p -> reads_as toks p
| ra_lost before p lost rest p' : written before p ->
    99 <= List.length lost -> Forall (fun t => ~ In (t_code t) [SEMICOLON; LBRACE; RBRACE]) lost ->
    reads_as rest p' -> reads_as (before ++ lost ++ rest) (p ++ p').

(** ** Braces *)
Definition count (code : Z) (toks : list token) : nat := List.length (filter (fun t => Z.eqb (t_code t) code) toks).

(** ** Decks *)
Section Spec.
  Variable A : arith.
  Variable reg : string -> option fsig.
  Variable funs : fsig -> list (value A) -> result (value A).
  Variable restricted : bool.

  (** C++ fixes the types: the default of a parameter has the type of its variable; a function
      returns a value of its declared type. *)
  Definition typed_classes (classes : list (string * class A)) : Prop :=
    forall name c l n k, In (name, c) classes -> c_impl A c = Some l -> In (n, k) l ->
      match k with
      | Default _ m v | ReadOnly _ m (Some v) => type_of v = type_of m
      | _ => True
      end.
  Definition typed_functions : Prop := forall f args v, funs f args = Ok v -> type_of v = fs_ret f.

  (** The result of [Parser::parse] on these tokens. *)
  Definition parses_to (toks : list token) (d : deck A) (r : ended A) : Prop :=
    exists n, forall fuel, n <= fuel -> parse_deck A reg funs restricted fuel toks d = r.
  (** The result of executing statements one by one, then updating all variables.  Failures are
      compared without the token they are reported at. *)
  Definition executes_to (p : list statement) (d : deck A) (r : ended A) : Prop :=
    match run A reg funs restricted p (start A d) with
    | inr d' => r = finish A funs d'
    | inl UndefinedBehaviour => r = Crashed A
    | inl f => exists f', r = Rejected A f' /\ forget f' = f
    end.

  (** Everything that can be made of a new parser by parsing decks, up to any statement of the
      last.  (A deck that is rejected is not followed by others.) *)
  Inductive history : deck A -> Prop :=
  | h_new name cls classes : typed_classes classes -> history (new_deck A name cls classes)
  | h_start d : history d -> history (start A d)
  | h_exec s d d' : history d -> exec A reg funs restricted s d = inr d' -> history d'
  | h_finish d d' : history d -> finish A funs d = Accepted A d' -> history d'.

  (** A later state of the same parser. *)
  Inductive later : deck A -> deck A -> Prop :=
  | l_same d : later d d
  | l_exec s d d1 d' : exec A reg funs restricted s d = inr d1 -> later d1 d' -> later d d'.

  (** Nothing but variables and what blocks declare differs. *)
  Definition same_rest (d d' : deck A) : Prop :=
    d_cursor d' = d_cursor d /\ d_objs d' = d_objs d /\ d_root d' = d_root d /\ d_cur d' = d_cur d /\
    d_depth d' = d_depth d /\ d_classes d' = d_classes d /\ d_mem d' = d_mem d.

  (** A variable that some block declares. *)
  Definition declared (d : deck A) (x : nat) : Prop := exists b name, declares (d_blocks d) b name x.
  (** The variable has no fixed value but an expression. *)
  Definition defined_by (d : deck A) (x : nat) (e : expr A) : Prop :=
    declared d x /\ exists v, nth_error (d_vars d) x = Some v /\ v_fixed v = false /\ v_expr v = Some e.
  (** Variable [y] is defined by an expression with variable [x], which is itself defined by one. *)
  Definition uses (d : deck A) (x y : nat) : Prop := exists e, defined_by d y e /\ In x (refs e) /\ exists e', defined_by d x e'.
  Definition no_cycle (d : deck A) : Prop := forall x, ~ clos_trans nat (uses d) x x.

  (** ** Block objects *)

  (** The classes with an implementation. *)
  Definition implemented (classes : list (string * class A)) (cls : string) : Prop :=
    exists c l, In (cls, c) classes /\ c_impl A c = Some l.

  (** The objects the blocks of a deck should have.  [stack] lists the blocks that are open after
      the statements, the innermost first, with the number of the object of each, if it has one;
      [objs] lists all objects made, with their name, class and the number of the object around
      them, in the order of the deck. *)
  Fixpoint innermost (stack : list (option nat)) : option nat :=
    match stack with
    | [] => None
    | Some o :: _ => Some o
    | None :: stack' => innermost stack'
    end.
  Definition block_name (cls : string) (name : option string) : string := match name with Some n => n | None => cls end.
  Inductive nesting (classes : list (string * class A)) (root rootclass : string) :
      list statement -> list (option nat) -> list (string * string * option nat) -> Prop :=
  | n_root : implemented classes rootclass -> nesting classes root rootclass [] [Some 0] [(root, rootclass, None)]
  | n_no_root : ~ implemented classes rootclass -> nesting classes root rootclass [] [None] []
  | n_open p stack objs cls name : nesting classes root rootclass p stack objs -> implemented classes cls ->
      nesting classes root rootclass (p ++ [SOpen cls name]) (Some (List.length objs) :: stack)
        (objs ++ [(block_name cls name, cls, innermost stack)])
  | n_plain p stack objs cls name : nesting classes root rootclass p stack objs -> ~ implemented classes cls ->
      nesting classes root rootclass (p ++ [SOpen cls name]) (None :: stack) objs
  | n_close p o o' stack objs : nesting classes root rootclass p (o :: o' :: stack) objs ->
      nesting classes root rootclass (p ++ [SClose]) (o' :: stack) objs
  | n_other p stack objs s : nesting classes root rootclass p stack objs ->
      (match s with SOpen _ _ | SClose => False | _ => True end) -> nesting classes root rootclass (p ++ [s]) stack objs.

  (** The numbers of the objects inside object [i], in the order of the deck. *)
  Definition inside (objs : list (string * string * option nat)) (i : nat) : list nat :=
    filter (fun j => match nth_error objs j with Some (_, Some k) => Nat.eqb k i | _ => false end) (seq 0 (List.length objs)).
  (** Object [j] is object [i] or inside it, directly or not, according to the lists of children. *)
  Inductive reachable (d : deck A) (i : nat) : nat -> Prop :=
  | r_self : reachable d i i
  | r_child j o k : reachable d i j -> nth_error (d_objs d) j = Some o -> In k (o_children o) -> reachable d i k.
End Spec.
