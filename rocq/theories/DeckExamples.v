(** The theorems about decks in the form of [DeckProps], and concrete decks. *)
From Coq Require Import ZArith List Bool String Ascii Lia Arith Relations.
From Verif Require Import ScanModel ScanSpec ScanLoopProofs ParseModel ParseSpec ParseProofs ParseSoundProofs ParseRunProofs ParseMoreProofs ParseExamples ExprModel ExprSyntax DepModel DepSpec DeckModel DeckSyntax DeckMeaning DeckSpec
  DeckReadProofs DeckRunProofs DeckStageProofs DeckInvProofs DeckFinishProofs DeckLookupProofs DeckBraceProofs DeckEffectProofs DeckObjectProofs.
Import ListNotations.
Local Open Scope nat_scope.

(** ** Tokens of texts *)
Lemma rules_plain : Forall (fun x => match fst x with Sym c | Word c => (0 < c < 22 /\ c <> PATHIDENTIFIER)%Z | _ => True end) rules.
Proof. repeat constructor; cbv; congruence. Qed.
Lemma kind_plain : forall s w k, longest s w k -> forall line, Forall (fun t => 0 < t_code t < 22 /\ t_code t <> PATHIDENTIFIER)%Z (token_of k line w).
Proof.
  intros s w k [_ [[bf [r [af [E _]]]] _]] line. pose proof rules_plain as R. rewrite E in R. apply Forall_app in R. destruct R as [_ R]. inversion R as [|? ? R1 _]; subst. cbn in R1.
  destruct k; cbn; repeat constructor; cbn; try tauto; try discriminate.
Qed.
Lemma segments_plain : forall s l o, segments s l o -> forall line, Forall (fun t => 0 < t_code t < 22 /\ t_code t <> PATHIDENTIFIER)%Z (tokens_of line l).
Proof.
  intros s l o H. induction H as [|w r k l o L _ _ IH|w b r l o _ _ _ IH|w b _ _|s _ _ _|s _ _ _]; intros line; cbn [tokens_of]; try constructor; auto.
  apply Forall_app. split; [eapply kind_plain; exact L|apply IH].
Qed.
Lemma read_plain : forall A text toks, read text toks -> plain (tokens A toks).
Proof.
  intros A text toks [fuel [flag E]]. unfold scan in E. apply do_scan_sound in E; [|unfold BUFSIZE; lia]. destruct E as [l [o [S [-> _]]]].
  unfold plain, tokens. apply Forall_forall. intros x Hx. apply in_map_iff in Hx. destruct Hx as [a [<- Ha]]. pose proof (segments_plain _ _ _ S 1%Z) as F. rewrite Forall_forall in F. destruct (F a Ha) as [F1 F2]. split; [exact F1|exact F2].
Qed.

Lemma few_shallow : forall A toks, List.length toks <= 97 -> shallow 99 (tokens A toks).
Proof.
  intros A toks H. apply short_is_shallow. intros p m q E _. assert (L : List.length (tokens A toks) = List.length toks) by apply map_length. rewrite E, !app_length in L. lia.
Qed.

Lemma few_short : forall A toks, List.length toks <= 97 -> short_statements 97 (tokens A toks).
Proof. intros A toks H p m q E _. assert (L : List.length (tokens A toks) = List.length toks) by apply map_length. rewrite E, !app_length in L. lia. Qed.

Section Main.
  Variable A : arith.
  Variable reg : string -> option fsig.
  Variable funs : fsig -> list (value A) -> result (value A).
  Variable restricted : bool.
  Notation history := (history A reg funs restricted).
  Notation parses_to := (parses_to A reg funs restricted).
  Notation executes_to := (executes_to A reg funs restricted).

  Lemma parses_by : forall fuel toks d r, parse_deck A reg funs restricted fuel toks d = r -> r <> NotYet A -> parses_to toks d r.
  Proof.
    intros fuel toks d r <- H. exists fuel. intros fuel' Hf. unfold parse_deck in *.
    assert (Q : parse (no_token A) (action A reg funs restricted) YYSTACKDEPTH fuel' (tokens A toks) (start A d) = parse (no_token A) (action A reg funs restricted) YYSTACKDEPTH fuel (tokens A toks) (start A d)).
    { apply tokens_mono; [|exact Hf]. intros E. unfold parse in H. rewrite E in H. apply H. reflexivity. }
    rewrite Q. reflexivity.
  Qed.

  (** ** C72 *)
  Lemma deck_executed : forall toks p d, p <> [] -> written toks p -> shallow 99 (tokens A toks) -> exists r, parses_to toks d r /\ executes_to p d r.
  Proof. exact (written_run A reg funs restricted). Qed.
  Lemma deck_executed_or_error : forall toks p d, p <> [] -> written toks p ->
    exists r, parses_to toks d r /\ (executes_to p d r \/ (exists f, r = Rejected A f) \/ (exists t, r = SyntaxErr A t) \/ r = Crashed A).
  Proof. exact (written_result A reg funs restricted). Qed.
  Lemma accepted_executed : forall toks p d r, p <> [] -> written toks p -> parses_to toks d r ->
    (exists d', r = Accepted A d') \/ r = DuplicateId A \/ r = AssertFailed A -> executes_to p d r.
  Proof.
    intros toks p d r Hn Hw P H. destruct (written_executed A reg funs restricted toks p d r Hn Hw P H) as [d' [P1 P2]]. unfold DeckSpec.executes_to. rewrite P1. exact P2.
  Qed.
  Lemma deck_is_statements : forall text toks d r, read text toks -> parses_to toks d r ->
    (exists d', r = Accepted A d') \/ r = DuplicateId A \/ r = AssertFailed A -> exists p, p <> [] /\ reads_as toks p /\ executes_to p d r.
  Proof.
    intros text toks d r R P H. destruct (any_executed A reg funs restricted toks d r (read_plain A _ _ R) P H) as [p [d' [P1 [P2 [P3 P4]]]]].
    exists p. split; [exact P1|]. split; [exact P2|]. unfold DeckSpec.executes_to. rewrite P3. exact P4.
  Qed.
  Lemma short_reads : forall toks p, reads_as toks p -> short_statements 97 (tokens A toks) -> written toks p.
  Proof.
    intros toks p [? ? H|before q lost rest p' _ Hl Hn _] S; [exact H|]. exfalso.
    assert (E : tokens A (before ++ lost ++ rest) = (tokens A before ++ tokens A lost ++ tokens A rest)%list) by (unfold tokens; rewrite !map_app; reflexivity).
    assert (L : List.length (tokens A lost) = List.length lost) by apply map_length.
    assert (S' : List.length (tokens A lost) <= 97) by (apply (S _ _ _ E); unfold tokens; rewrite Forall_map; exact Hn). lia.
  Qed.

  Hypothesis funs_typed : typed_functions A funs.

  (** The state from which [finish] gives a result other than a rejection. *)
  Lemma ended_history : forall text toks d r, history d -> read text toks -> parses_to toks d r ->
    (exists d', r = Accepted A d') \/ r = DuplicateId A \/ r = AssertFailed A ->
    exists p d1, reads_as toks p /\ run A reg funs restricted p (start A d) = inr d1 /\ history d1 /\ finish A funs d1 = r.
  Proof.
    intros text toks d r H R P Hr. destruct (any_executed A reg funs restricted toks d r (read_plain A _ _ R) P Hr) as [p [d1 [_ [P2 [P3 P4]]]]].
    exists p, d1. split; [exact P2|]. split; [exact P3|]. split; [|auto]. eapply history_run; [apply h_start; exact H|exact P3].
  Qed.

  (** ** C43 *)
  Lemma braces : forall text toks root rootclass classes r, typed_classes A classes -> read text toks -> parses_to toks (new_deck A root rootclass classes) r ->
    (exists d', r = Accepted A d') \/ r = DuplicateId A \/ r = AssertFailed A ->
    (forall d', r = Accepted A d' -> exists l, enclosing (d_blocks d') (d_cursor d') l /\ List.length l + count RBRACE toks = 1 + count LBRACE toks) /\
    forall pre post, toks = pre ++ post -> count RBRACE pre <= count LBRACE pre.
  Proof.
    intros text toks root rootclass classes r T R P Hr. assert (H : history (new_deck A root rootclass classes)) by (constructor; exact T).
    destruct (ended_history text toks _ r H R P Hr) as [p [d1 [P1 [P2 [P3 P4]]]]].
    destruct (reads_depth A reg funs restricted funs_typed toks p P1 _ d1 0 (history_wf A reg funs restricted funs_typed _ (h_start _ _ _ _ _ H)) P2 (new_depth A root rootclass classes)) as [[k [[l [Hl Hk]] Q]] B].
    split; [|exact B]. intros d' ->. destruct (accepted_spec A funs d1 (history_wf A reg funs restricted funs_typed _ P3) d' P4) as [_ [Q1 [Q2 _]]]. exists l. rewrite Q1, Q2. split; [exact Hl|]. lia.
  Qed.
  Lemma extra_brace : forall text toks root rootclass classes r pre post, typed_classes A classes -> read text toks -> parses_to toks (new_deck A root rootclass classes) r ->
    toks = pre ++ post -> count LBRACE pre < count RBRACE pre -> (forall d', r <> Accepted A d') /\ r <> DuplicateId A /\ r <> AssertFailed A.
  Proof.
    intros text toks root rootclass classes r pre post T R P E C.
    assert (K : ~ ((exists d', r = Accepted A d') \/ r = DuplicateId A \/ r = AssertFailed A)). { intros K. destruct (braces text toks root rootclass classes r T R P K) as [_ B]. specialize (B pre post E). lia. }
    split; [intros d' Q; apply K; left; eauto|]. split; intros Q; apply K; auto.
  Qed.
  Lemma open_blocks : forall text toks root rootclass classes d', typed_classes A classes -> read text toks -> parses_to toks (new_deck A root rootclass classes) (Accepted A d') ->
    exists l, enclosing (d_blocks d') (d_cursor d') l /\ List.length l + count RBRACE toks = 1 + count LBRACE toks.
  Proof.
    intros text toks root rootclass classes d' T R P. apply (braces text toks root rootclass classes (Accepted A d') T R P); [left; eauto|reflexivity].
  Qed.

  (** ** C44, C45 *)
  Lemma lookup_spec : forall d b name path, history d -> components ":" name path ->
    (forall x, get_variable (d_blocks d) b name = Some x <-> means (d_blocks d) b path x) /\
    (get_variable (d_blocks d) b name = None <-> forall x, ~ means (d_blocks d) b path x).
  Proof.
    intros d b name path H C. pose proof (history_wf A reg funs restricted funs_typed d H) as W.
    assert (K : forall x, get_variable (d_blocks d) b name = Some x <-> means (d_blocks d) b path x) by (intros x; eapply get_variable_means; [apply W|exact C]).
    split; [exact K|]. split.
    - intros E x Hx. apply K in Hx. congruence.
    - intros N. destruct (get_variable (d_blocks d) b name) as [x|] eqn:E; [|reflexivity]. exfalso. apply (N x). apply K. reflexivity.
  Qed.
  Lemma exists_spec : forall d b path, history d -> b < List.length (d_blocks d) -> path <> [] ->
    exists r, exists_path (d_blocks d) b path false = Some r /\ (r = true <-> exists x, get_down (d_blocks d) b path = Some x).
  Proof.
    intros d b path H Hb Hp. pose proof (history_wf A reg funs restricted funs_typed d H) as W. destruct (exists_local _ _ (wf_b A d W) path b Hb Hp) as [r [R1 R2]]. exists r. split; [exact R1|]. rewrite R2.
    split; intros [x Hx]; exists x; eapply get_down_leads; eauto; apply W.
  Qed.
  Lemma exists_up : forall d b path, history d -> b < List.length (d_blocks d) -> path <> [] ->
    (exists_path (d_blocks d) b path true = Some true <-> exists x, leads (d_blocks d) b path x) /\
    (exists_path (d_blocks d) b path true = None -> b = 0 /\ forall x, ~ leads (d_blocks d) b path x).
  Proof.
    intros d b path H Hb Hp. pose proof (history_wf A reg funs restricted funs_typed d H) as W. destruct (exists_local _ _ (wf_b A d W) path b Hb Hp) as [r [R1 R2]].
    destruct (nth_error (d_blocks d) b) as [blk|] eqn:E; [|apply nth_error_None in E; lia].
    assert (K : (exists_path (d_blocks d) b path true = Some r /\ True) \/ (r = false /\ (exists_path (d_blocks d) b path true = None /\ b_parent blk = None \/ exists_path (d_blocks d) b path true = Some false))).
    { destruct path as [|n path]; [congruence|]. destruct path as [|n' path]; cbn [exists_path] in *; rewrite E in *.
      - destruct (sfind (b_vars blk) n) as [y|]; [left; inversion R1; auto|]. right. inversion R1; subst. split; [reflexivity|]. destruct (b_parent blk); auto.
      - destruct (sfind (b_children blk) n) as [y|]; [left; auto|]. right. inversion R1; subst. split; [reflexivity|]. destruct (b_parent blk); auto. }
    destruct K as [[K _]|[-> K]].
    - rewrite K. split; [|discriminate]. rewrite <- R2. split; [intros Q; inversion Q; reflexivity|intros ->; reflexivity].
    - assert (N : ~ exists x, leads (d_blocks d) b path x) by (intros Q; apply R2 in Q; discriminate). split.
      + split; [intros Q; destruct K as [[K _]|K]; congruence|intros Q; contradiction].
      + intros Q. destruct K as [[_ K]|K]; [|congruence]. pose proof (wb_parent _ _ (wf_b A d W) b blk E) as P. rewrite K in P. split; [exact P|]. intros x Hx. apply N. eauto.
  Qed.

  (** ** C46 *)
  Lemma redeclaration : forall d t x rest, history d ->
    (exists n y, In n (map fst (x :: rest)) /\ declares (d_blocks d) (d_cursor d) n y) \/ ~ NoDup (map fst (x :: rest)) ->
    exists f, exec A reg funs restricted (SDecl t x rest) d = inl f.
  Proof.
    intros d t x rest H K. destruct (exec A reg funs restricted (SDecl t x rest) d) as [f|d'] eqn:E; [eauto|]. exfalso.
    destruct (declaration A reg funs restricted funs_typed d t x rest d' H E) as [new [_ [_ [_ [_ [N [D _]]]]]]]. destruct K as [[n [y [K1 K2]]]|K]; [apply (D n y K1 K2)|contradiction].
  Qed.
  Lemma finish_keeps : forall d d', history d -> finish A funs d = Accepted A d' ->
    d_blocks d' = d_blocks d /\
    forall x v, nth_error (d_vars d) x = Some v -> exists v', nth_error (d_vars d') x = Some v' /\ v_type v' = v_type v /\ v_ro v' = v_ro v /\ v_expr v' = v_expr v /\ (v_fixed v = true -> v' = v).
  Proof.
    intros d d' H E. destruct (accepted_spec A funs d (history_wf A reg funs restricted funs_typed d H) d' E) as [_ [B [_ [_ [_ [_ [_ [_ [V _]]]]]]]]]. split; [exact B|].
    intros x v Hx. destruct (V x v Hx) as [w [W1 W2]]. eexists. split; [exact W1|]. cbn. repeat split. intros F. rewrite (W2 F). destruct v; reflexivity.
  Qed.

  (** ** C47 *)
  Lemma objects_spec : forall root rootclass classes p d, NoDup (map fst classes) -> typed_classes A classes -> run A reg funs restricted p (start A (new_deck A root rootclass classes)) = inr d ->
    exists stack objs, nesting A classes root rootclass p stack objs /\ List.length (d_objs d) = List.length objs /\ NoDup (map o_vars (d_objs d)) /\
      forall i o, nth_error (d_objs d) i = Some o ->
        nth_error objs i = Some (o_name o, o_class o, o_parent o) /\ o_children o = inside objs i /\
        exists blk, nth_error (d_blocks d) (o_vars o) = Some blk /\ b_name blk = o_name o /\ b_class blk = o_class o.
  Proof.
    intros root rootclass classes p d N T E. destruct (objects A reg funs restricted funs_typed classes N T root rootclass p d E) as [st [ns [N1 I]]]. exists st, ns. split; [exact N1|].
    destruct I as [_ [Sh1 Sh2] _ _ _ _ _ [X1 X2]]. split; [exact Sh1|]. split; [exact X2|]. intros i o Ho. destruct (Sh2 i o Ho) as [S1 S2]. split; [exact S1|]. split; [exact S2|]. apply (X1 i o Ho).
  Qed.

  (** ** C48, C52 *)
  Lemma final_values : forall d d', history d -> finish A funs d = Accepted A d' ->
    forall x e, defined_by A d x e -> defined_by A d' x e /\
      (eval (store_of A funs d') e = Ok (v_val (var_at A d' x)) \/ eval (store_of A funs d') e = BadCast \/ eval (store_of A funs d') e = BadGet).
  Proof. intros d d' H E. apply (accepted_spec A funs d (history_wf A reg funs restricted funs_typed d H) d' E). Qed.
  Lemma accepted_acyclic : forall d d', history d -> finish A funs d = Accepted A d' -> no_cycle A d /\ no_cycle A d'.
  Proof.
    intros d d' H E. destruct (accepted_spec A funs d (history_wf A reg funs restricted funs_typed d H) d' E) as [N [_ [_ [_ [_ [_ [_ [_ [_ [D _]]]]]]]]]]. split; [exact N|].
    intros x Hx. apply (N x). revert Hx. apply clos_impl. intros a b [e [E1 [E2 [e' E3]]]]. exists e. split; [apply D; exact E1|]. split; [exact E2|]. exists e'. apply D. exact E3.
  Qed.
  Lemma deck_acyclic : forall text toks d d', history d -> read text toks -> parses_to toks d (Accepted A d') -> no_cycle A d'.
  Proof.
    intros text toks d d' H R P. destruct (ended_history text toks d _ H R P) as [p [d1 [_ [_ [H1 F]]]]]; [left; eauto|]. eapply accepted_acyclic; eauto.
  Qed.
  Lemma cyclic_asserts : forall d x, history d -> clos_trans nat (uses A d) x x -> finish A funs d = AssertFailed A.
  Proof. intros d x H. apply cycle_asserts. eapply history_wf; eauto. Qed.
  Lemma acyclic_ends : forall d, history d -> no_cycle A d -> (exists d', finish A funs d = Accepted A d') \/ finish A funs d = Crashed A.
  Proof.
    intros d H N. pose proof (finish_cases A funs d (history_wf A reg funs restricted funs_typed d H)) as F. destruct (finish A funs d); try contradiction; eauto.
  Qed.
End Main.

(** ** Concrete decks *)
Local Open Scope string_scope.
Fixpoint decimal (acc : Z) (s : string) : Z :=
  match s with
  | EmptyString => acc
  | String c s' => if Ascii.eqb c "." then acc else decimal (10 * acc + (Z.of_N (N_of_ascii c) - 48))%Z s'
  end.
Definition deck_arith : arith :=
  mkArith Z Z.add Z.sub Z.mul Z.div Z.pow Z.opp (fun z => z) Some (fun _ => "") (fun _ => "")
    (fun s => Some (decimal 0 s)) (fun s => Some (decimal 0 s)).
Definition no_fun (_ : string) : option fsig := None.
Definition no_eval (_ : fsig) (_ : list (value deck_arith)) : result (value deck_arith) := Undefined.
Example no_eval_typed : typed_functions deck_arith no_eval.
Proof. intros f args v E. discriminate. Qed.
Notation zint := (@VInt deck_arith).
Definition toks_of (s : string) : list token := match scan (100 * 100) (list_ascii_of_string s) with Some (t, _) => t | None => [] end.
Definition parse_text (restricted : bool) (classes : list (string * class deck_arith)) (s : string) : ended deck_arith :=
  parse_deck deck_arith no_fun no_eval restricted (100 * 100) (toks_of s) (new_deck deck_arith "main" "main" classes).
Definition deck_of (r : ended deck_arith) : deck deck_arith := match r with Accepted _ d => d | _ => new_deck deck_arith "" "" [] end.
Definition value_of (d : deck deck_arith) (name : string) : option Z :=
  match get_variable (d_blocks d) 0 name with
  | Some x => match v_val (var_at deck_arith d x) with VInt z => Some z | _ => None end
  | None => None
  end.
Lemma read_by : forall s, (if scan (100 * 100) (list_ascii_of_string s) then true else false) = true -> read s (toks_of s).
Proof. intros s H. unfold toks_of. destruct (scan (100 * 100) (list_ascii_of_string s)) as [[t f]|] eqn:E; [|discriminate]. exists (100 * 100), f. exact E. Qed.
Lemma parse_by : forall restricted classes s r, parse_text restricted classes s = r -> r <> NotYet deck_arith -> parses_to deck_arith no_fun no_eval restricted (toks_of s) (new_deck deck_arith "main" "main" classes) r.
Proof. intros restricted classes s r E H. apply (parses_by _ _ _ _ (100 * 100)); assumption. Qed.

Lemma accepted_by : forall restricted classes s, (match parse_text restricted classes s with Accepted _ _ => true | _ => false end) = true ->
  parses_to deck_arith no_fun no_eval restricted (toks_of s) (new_deck deck_arith "main" "main" classes) (Accepted _ (deck_of (parse_text restricted classes s))).
Proof. intros restricted classes s H. destruct (parse_text restricted classes s) as [d|f|t| | | | |] eqn:E; try discriminate. apply parse_by; [exact E|discriminate]. Qed.

(** Variable [x] of block [b] is defined by an expression with variable [y]. *)
Definition refers (d : deck deck_arith) (b x y : nat) : bool :=
  match nth_error (d_blocks d) b, nth_error (d_vars d) x with
  | Some blk, Some v =>
      existsb (fun p => Nat.eqb (snd p) x) (b_vars blk) && negb (v_fixed v) &&
      match v_expr v with Some e => existsb (Nat.eqb y) (refs e) | None => false end
  | _, _ => false
  end.
Lemma refers_spec : forall d b x y, refers d b x y = true -> exists e, defined_by deck_arith d x e /\ In y (refs e).
Proof.
  intros d b x y H. unfold refers in H. destruct (nth_error (d_blocks d) b) as [blk|] eqn:Eb; [|discriminate]. destruct (nth_error (d_vars d) x) as [v|] eqn:Ev; [|discriminate].
  apply andb_prop in H. destruct H as [H H3]. apply andb_prop in H. destruct H as [H1 H2]. destruct (v_expr v) as [e|] eqn:Ee; [|discriminate].
  apply existsb_exists in H1. destruct H1 as [[n x'] [H1 Q]]. cbn in Q. apply Nat.eqb_eq in Q. subst x'. apply existsb_exists in H3. destruct H3 as [y' [H3 Q]]. apply Nat.eqb_eq in Q. subst y'.
  exists e. split; [|exact H3]. split; [exists b, n, blk; auto|]. exists v. split; [exact Ev|]. split; [destruct (v_fixed v); [discriminate|reflexivity]|exact Ee].
Qed.

(** A deck with blocks with and without implementation, and paths. *)
Definition bodies : list (string * class deck_arith) :=
  [("item", mkClass _ [] (Some [("n", Default _ (zint 0) (zint 4)); ("id", Constant _ (zint 8))]));
   ("main", mkClass _ ["item"; "group"] (Some [("x", Required _ (zint 0)); ("t", ReadOnly _ (zint 0) (Some (zint 2)))]));
   ("group", mkClass _ ["item"] None)].
Example bodies_typed : typed_classes deck_arith bodies.
Proof. intros name c l n k [E|[E|[E|[]]]] Hc Hl; inversion E; subst; inversion Hc; subst; destruct Hl as [Q|[Q|[]]]; inversion Q; subst; exact I || reflexivity. Qed.
Example bodies_once : NoDup (map fst bodies).
Proof. repeat constructor; cbn; intuition discriminate. Qed.
Definition deck1 := "int a = 3; x = a * 2; int b = t + a; group g { item i { n = a + x; } item { int c = n; } a = a + 1; } int d = b + g:i:n;".
Definition deck1_end := deck_of (parse_text true bodies deck1).
Example deck1_parsed : read deck1 (toks_of deck1) /\ shallow 99 (tokens deck_arith (toks_of deck1)) /\
  parses_to deck_arith no_fun no_eval true (toks_of deck1) (new_deck deck_arith "main" "main" bodies) (Accepted _ deck1_end) /\
  value_of deck1_end "a" = Some 4%Z /\ value_of deck1_end "x" = Some 6%Z /\ value_of deck1_end "b" = Some 6%Z /\
  value_of deck1_end "g:i:n" = Some 9%Z /\ value_of deck1_end "g:item:c" = Some 4%Z /\ value_of deck1_end "d" = Some 15%Z /\
  map (fun o => (o_name o, o_class o, o_parent o, o_children o)) (d_objs deck1_end) = [("main", "main", None, [1; 2]); ("i", "item", Some 0, []); ("item", "item", Some 0, [])].
Proof.
  split; [apply read_by; vm_compute; reflexivity|]. split; [apply few_shallow; vm_compute; lia|]. split; [apply accepted_by; vm_compute; reflexivity|]. vm_compute. repeat split.
Qed.

(** Every theorem about accepted decks applies to it. *)
Example deck1_statements : exists p, p <> [] /\ written (toks_of deck1) p /\ executes_to deck_arith no_fun no_eval true p (new_deck deck_arith "main" "main" bodies) (Accepted _ deck1_end).
Proof.
  destruct deck1_parsed as [R [_ [P _]]]. destruct (deck_is_statements _ _ _ _ _ _ _ _ R P) as [p [P1 [P2 P3]]]; [left; eauto|]. exists p. split; [exact P1|]. split; [|exact P3].
  apply (short_reads deck_arith); [exact P2|]. apply few_short. vm_compute. lia.
Qed.
Example deck1_history : history deck_arith no_fun no_eval true (start deck_arith (new_deck deck_arith "main" "main" bodies)).
Proof. apply h_start. apply h_new. exact bodies_typed. Qed.
Example deck1_run : exists p d d', run deck_arith no_fun no_eval true p (start deck_arith (new_deck deck_arith "main" "main" bodies)) = inr d /\ List.length (d_objs d) = 3 /\
  history deck_arith no_fun no_eval true d /\ finish deck_arith no_eval d = Accepted _ d' /\ (exists x e, defined_by deck_arith d x e /\ In 2 (refs e)).
Proof.
  destruct deck1_parsed as [R [S [P _]]]. destruct (ended_history deck_arith no_fun no_eval true deck1 _ _ _ (h_new _ _ _ _ "main" "main" bodies bodies_typed) R P) as [p [d1 [P1 [P2 [P3 P4]]]]]; [left; eauto|].
  exists p, d1, deck1_end. destruct (accepted_spec deck_arith no_eval d1 (history_wf _ _ _ _ no_eval_typed _ P3) _ P4) as [_ [_ [_ [Q [_ [_ [_ [_ [_ [D _]]]]]]]]]].
  split; [exact P2|]. split; [rewrite <- Q; vm_compute; reflexivity|]. split; [exact P3|]. split; [exact P4|].
  destruct (refers_spec deck1_end 0 3 2 ltac:(vm_compute; reflexivity)) as [e [K1 K2]]. exists 3, e. split; [apply D; exact K1|exact K2].
Qed.

(** *** C43 *)
Definition missing := "group g {".
Lemma missing_accepted : exists toks d', read missing toks /\ count LBRACE toks = 1 /\ count RBRACE toks = 0 /\
  parses_to deck_arith no_fun no_eval false toks (new_deck deck_arith "main" "main" bodies) (Accepted _ d') /\ d_cursor d' = 1.
Proof.
  exists (toks_of missing), (deck_of (parse_text false bodies missing)). split; [apply read_by; vm_compute; reflexivity|]. split; [vm_compute; reflexivity|]. split; [vm_compute; reflexivity|].
  split; [apply accepted_by; vm_compute; reflexivity|vm_compute; reflexivity].
Qed.
Definition extra := "int a = 3; group g { a = 4; } } a = 5;".
Example extra_rejected : read extra (toks_of extra) /\ shallow 99 (tokens deck_arith (toks_of extra)) /\
  parses_to deck_arith no_fun no_eval false (toks_of extra) (new_deck deck_arith "main" "main" bodies) (parse_text false bodies extra) /\
  (exists a, parse_text false bodies extra = Rejected _ (ParserErr ExtraBrace a)) /\
  exists pre post, toks_of extra = (pre ++ post)%list /\ count LBRACE pre < count RBRACE pre.
Proof.
  split; [apply read_by; vm_compute; reflexivity|]. split; [apply few_shallow; vm_compute; lia|]. split; [apply parse_by; [reflexivity|vm_compute; discriminate]|]. split; [eexists; vm_compute; reflexivity|].
  exists (firstn 14 (toks_of extra)), (skipn 14 (toks_of extra)). split; [symmetry; apply firstn_skipn|vm_compute; lia].
Qed.

(** *** C44 *)
Example lookup_meets : history deck_arith no_fun no_eval true deck1_end /\ components ":" "g:i:n" ["g"; "i"; "n"] /\ means (d_blocks deck1_end) 3 ["g"; "i"; "n"] 4 /\ means (d_blocks deck1_end) 3 ["a"] 2 /\ means (d_blocks deck1_end) 3 ["n"] 6.
Proof.
  assert (H : history deck_arith no_fun no_eval true deck1_end).
  { destruct deck1_parsed as [R [S [P _]]]. destruct (ended_history deck_arith no_fun no_eval true deck1 _ _ _ (h_new _ _ _ _ "main" "main" bodies bodies_typed) R P) as [p [d1 [P1 [P2 [P3 P4]]]]]; [left; eauto|]. eapply h_finish; eauto. }
  split; [exact H|]. assert (C : forall n p, split ":" n = p -> components ":" n p) by (intros n p; apply components_split). split; [apply C; reflexivity|].
  assert (K : forall n p x, components ":" n p -> get_variable (d_blocks deck1_end) 3 n = Some x -> means (d_blocks deck1_end) 3 p x) by (intros n p x Hc; apply (proj1 (lookup_spec deck_arith no_fun no_eval true no_eval_typed deck1_end 3 n p H Hc))).
  split; [apply (K "g:i:n")|split; [apply (K "a")|apply (K "n")]]; first [apply C; reflexivity|vm_compute; reflexivity].
Qed.

(** *** C45 *)
Lemma exists_wrong : exists d, history deck_arith no_fun no_eval true d /\
  (get_variable (d_blocks d) 1 "a" = Some 2 /\ exists_variable (d_blocks d) 1 "a" = Some false) /\
  (get_variable (d_blocks d) 0 "g:i:n" = Some 4 /\ exists_variable (d_blocks d) 0 "g:i:n" = None) /\
  (get_variable (d_blocks d) 0 "z" = None /\ exists_variable (d_blocks d) 0 "z" = None).
Proof. exists deck1_end. split; [apply lookup_meets|]. vm_compute. repeat split. Qed.

(** *** C48 *)
Definition early := "int a = x; x = 5;".
Lemma early_use : exists toks d', read early toks /\
  parses_to deck_arith no_fun no_eval true toks (new_deck deck_arith "main" "main" bodies) (Accepted _ d') /\
  value_of d' "a" = Some 0%Z /\ value_of d' "x" = Some 5%Z.
Proof.
  exists (toks_of early), (deck_of (parse_text true bodies early)). split; [apply read_by; vm_compute; reflexivity|]. split; [apply accepted_by; vm_compute; reflexivity|]. vm_compute. repeat split.
Qed.

(** *** C52 *)
Definition circular := "int a = t; int b = a; a = b + 1;".
Definition var (x : string) : sum := Sum None (Term (FAtom (AId x)) []) [].
Definition circular_stmts : list statement :=
  [SDecl TInt ("a", Some (var "t")) []; SDecl TInt ("b", Some (var "a")) [];
   SAssign "a" (Sum None (Term (FAtom (AId "b")) []) [(true, Term (FAtom (AInt "1")) [])])].
Definition circular_end : deck deck_arith :=
  match run deck_arith no_fun no_eval true circular_stmts (start deck_arith (new_deck deck_arith "main" "main" bodies)) with inr d => d | inl _ => new_deck _ "" "" [] end.
Example circular_cycle : read circular (toks_of circular) /\ written (toks_of circular) circular_stmts /\
  history deck_arith no_fun no_eval true circular_end /\ clos_trans nat (uses deck_arith circular_end) 2 2 /\
  parses_to deck_arith no_fun no_eval true (toks_of circular) (new_deck deck_arith "main" "main" bodies) (AssertFailed _).
Proof.
  split; [apply read_by; vm_compute; reflexivity|]. split; [vm_compute; repeat (constructor; [split; [reflexivity|first [exact I|reflexivity]]|]); constructor|].
  split.
  { apply history_run with (p := circular_stmts) (d := start deck_arith (new_deck deck_arith "main" "main" bodies)); [apply deck1_history|]. unfold circular_end.
    assert (Q : (match run deck_arith no_fun no_eval true circular_stmts (start deck_arith (new_deck deck_arith "main" "main" bodies)) with inr _ => true | inl _ => false end) = true) by (vm_compute; reflexivity).
    destruct (run deck_arith no_fun no_eval true circular_stmts (start deck_arith (new_deck deck_arith "main" "main" bodies))); [discriminate|reflexivity]. }
  split.
  - destruct (refers_spec circular_end 0 3 2 ltac:(vm_compute; reflexivity)) as [e [K1 K2]]. destruct (refers_spec circular_end 0 2 3 ltac:(vm_compute; reflexivity)) as [e' [L1 L2]].
    apply t_trans with 3; apply t_step; [exists e|exists e']; eauto.
  - apply parse_by; [vm_compute; reflexivity|discriminate].
Qed.

(** *** Several blocks without a root object *)
Definition rootless : list (string * class deck_arith) := [("item", mkClass _ [] (Some []))].
Definition two_items := "item p { } item q { }".
Lemma second_lost : exists toks d', read two_items toks /\ NoDup (map fst rootless) /\ typed_classes deck_arith rootless /\
  parses_to deck_arith no_fun no_eval false toks (new_deck deck_arith "main" "main" rootless) (Accepted _ d') /\
  map o_name (d_objs d') = ["p"; "q"] /\ d_root d' = Some 0 /\ ~ reachable deck_arith d' 0 1.
Proof.
  exists (toks_of two_items), (deck_of (parse_text false rootless two_items)). split; [apply read_by; vm_compute; reflexivity|]. split; [repeat constructor; intros []|].
  split; [intros n c l m k [E|[]] Hc Hl; inversion E; subst; inversion Hc; subst; destruct Hl|]. split; [apply accepted_by; vm_compute; reflexivity|]. split; [vm_compute; reflexivity|]. split; [vm_compute; reflexivity|].
  set (d := deck_of _). assert (O : d_objs d = [mkObj "p" "item" 1 None [] []; mkObj "q" "item" 2 None [] []]) by (vm_compute; reflexivity). clearbody d.
  assert (K : forall j, reachable deck_arith d 0 j -> j = 0). { induction 1 as [|j o k _ IH Eo Hk]; [reflexivity|]. subst j. rewrite O in Eo. cbn in Eo. inversion Eo; subst. destruct Hk. }
  intros H. apply K in H. discriminate.
Qed.
(** *** Restricted blocks *)
Definition forbidden := "group g { group h { } }".
Example forbidden_rejected : exists a, parses_to deck_arith no_fun no_eval true (toks_of forbidden) (new_deck deck_arith "main" "main" bodies) (Rejected _ (ParserErr BlockNotAllowed a)).
Proof. eexists. apply parse_by; [vm_compute; reflexivity|discriminate]. Qed.
