(** Statements about the values of variables in the form of the properties, and concrete decks. *)
From Coq Require Import ZArith List Bool String Ascii Lia Arith.
From Verif Require Import ScanModel ParseModel ExprModel ExprSyntax ExprBuildModel ExprSpec ExprGroupSpec ExprProofs ExprGroup DepModel DeckModel DeckSyntax DeckMeaning DeckSpec
  DeckRunProofs DeckInvProofs DeckLookupProofs DeckEffectProofs DeckObjectProofs DeckExamples TextSpec TextProofs ValueSpec ValueProofs.
Import ListNotations.
Local Open Scope nat_scope.

Section Main.
  Variable A : arith.
  Variable reg : string -> option fsig.
  Variable funs : fsig -> list (value A) -> result (value A).
  Variable restricted : bool.
  Hypothesis funs_typed : typed_functions A funs.

  Lemma text_every_variable : forall classes, NoDup (map fst classes) -> typed_classes A classes ->
    forall root rootclass text d', accepts A reg funs restricted text (new_deck A root rootclass classes) d' ->
    let d0 := start A (new_deck A root rootclass classes) in
    exists p, stands_for text p /\ forall b n x, declares (d_blocks d') b n x ->
    exists v, nth_error (d_vars d') x = Some v /\
      ((exists d e, last_writer A reg funs restricted p d0 x d e /\ forall vars, scope A d vars -> owes A reg funs d d' vars e v) \/
       (no_writer A reg funs restricted p d0 x /\ exists k, parameter A classes d' b n k /\ left_alone A k v)).
  Proof.
    intros classes once typed root rootclass text d' Ac d0. destruct (fresh_run A reg funs restricted funs_typed classes typed root rootclass text d' Ac) as [p [d1 [St [R [F _]]]]].
    exists p. split; [exact St|]. intros b n x D. eapply every_variable; eauto.
  Qed.
  Lemma plain_value : forall d vars s t, swf A vars reg s -> schains vars reg late_largest s ->
    value_in A reg funs d vars s t = rbind (svalue A vars reg (store_of A funs d) s) (converted A t).
  Proof.
    intros d vars s t Wf L. apply accepted in Wf. destruct Wf as [e B]. unfold value_in. rewrite <- (value_grouped A vars reg (store_of A funs d) s e (typed_store A funs funs_typed d) B).
    rewrite (value_mixed A vars reg (store_of A funs d) s e (typed_store A funs funs_typed d) L B). reflexivity.
  Qed.
  Lemma scope_exists : forall d, history A reg funs restricted d -> exists vars, scope A d vars /\ forall vars', scope A d vars' -> forall n, vars' n = vars n.
  Proof.
    intros d H. pose proof (history_wf A reg funs restricted funs_typed d H) as W. exists (lookup A d). split; [apply lookup_scope; exact W|]. intros vars' S n. apply scope_lookup; assumption.
  Qed.
End Main.

(** ** Concrete decks *)
Local Open Scope string_scope.
Definition num (s : string) : term := Term (FAtom (AInt s)) [].
Definition vt (s : string) : term := Term (FAtom (AId s)) [].
(** [int a = 3; x = a * 2; int b = t + a; a = a + 1;] in the main block of [bodies], where [x] is a
    required and [t] a read-only parameter. *)
Definition vx_two : sum := Sum None (Term (FAtom (AId "a")) [(true, FAtom (AInt "2"))]) [].
Definition vx_sum : sum := Sum None (vt "t") [(true, vt "a")].
Definition vx_p : list statement :=
  [SDecl TInt ("a", Some (Sum None (num "3") [])) []; SAssign "x" vx_two; SDecl TInt ("b", Some vx_sum) []; SAssign "a" (Sum None (vt "a") [(true, num "1")])].
Definition vx0 := start deck_arith (new_deck deck_arith "main" "main" bodies).
Definition vx_at (k : nat) : deck deck_arith := match run deck_arith no_fun no_eval true (firstn k vx_p) vx0 with inr d => d | inl _ => vx0 end.
Definition vx_end : deck deck_arith := match finish deck_arith no_eval (vx_at 4) with Accepted _ d => d | _ => vx0 end.
Lemma vx_run : forall k, k <= 4 -> run deck_arith no_fun no_eval true (firstn k vx_p) vx0 = inr (vx_at k).
Proof.
  intros k L. unfold vx_at. destruct (run deck_arith no_fun no_eval true (firstn k vx_p) vx0) eqn:E; [|reflexivity]. exfalso.
  assert (G : forall k, k <= 4 -> (if run deck_arith no_fun no_eval true (firstn k vx_p) vx0 then true else false) = false).
  { clear. intros k L. do 5 (destruct k as [|k]; [vm_compute; reflexivity|]). lia. }
  specialize (G k L). rewrite E in G. discriminate.
Qed.
Lemma vx_exec : forall k s, k < 4 -> nth_error vx_p k = Some s -> exec deck_arith no_fun no_eval true s (vx_at k) = inr (vx_at (S k)).
Proof.
  intros k s L E. pose proof (vx_run (S k) L) as R.
  assert (F : firstn (S k) vx_p = (firstn k vx_p ++ [s])%list).
  { clear - E. revert E. generalize vx_p. induction k as [|k IH]; intros [|a l] E; cbn in E; try discriminate; [inversion E; reflexivity|]. change (firstn (S (S k)) (a :: l)) with (a :: firstn (S k) l). rewrite (IH _ E). reflexivity. }
  rewrite F in R. apply run_snoc in R. destruct R as [d1 [R1 R2]]. rewrite vx_run in R1 by lia. congruence.
Qed.
Lemma vx_history : forall k, k <= 4 -> history deck_arith no_fun no_eval true (vx_at k).
Proof. intros k L. eapply history_run; [|apply vx_run; exact L]. apply h_start. apply h_new. exact bodies_typed. Qed.
Lemma vx_finish : finish deck_arith no_eval (vx_at 4) = Accepted _ vx_end.
Proof.
  unfold vx_end. assert (G : (match finish deck_arith no_eval (vx_at 4) with Accepted _ _ => true | _ => false end) = true) by (vm_compute; reflexivity).
  destruct (finish deck_arith no_eval (vx_at 4)); try discriminate. reflexivity.
Qed.
Lemma vx_wf : forall k, k <= 4 -> wf deck_arith (vx_at k).
Proof. intros k L. eapply history_wf; [exact no_eval_typed|]. apply vx_history. exact L. Qed.
Lemma vx_means : forall k n x, k <= 4 -> get_variable (d_blocks (vx_at k)) (d_cursor (vx_at k)) n = Some x -> exists path, components ":" n path /\ means (d_blocks (vx_at k)) (d_cursor (vx_at k)) path x.
Proof.
  intros k n x L G. exists (split ":" n). assert (C : components ":" n (split ":" n)) by (apply components_split; reflexivity). split; [exact C|].
  apply (get_variable_means _ _ (wf_b _ _ (vx_wf k L)) _ n _ x C). exact G.
Qed.
Lemma vx_not_means : forall k n x, k <= 4 -> get_variable (d_blocks (vx_at k)) (d_cursor (vx_at k)) n <> Some x -> forall path, components ":" n path -> ~ means (d_blocks (vx_at k)) (d_cursor (vx_at k)) path x.
Proof. intros k n x L G path C M. apply G. apply (get_variable_means _ _ (wf_b _ _ (vx_wf k L)) _ n _ x C). exact M. Qed.

Lemma late_short : forall l, List.length l <= 2 -> late_largest l.
Proof.
  intros l L a I. exists a. split; [|unfold ty_le; lia]. rewrite firstn_all2 by (rewrite rev_length; exact L). apply in_rev in I. exact I.
Qed.

(** The second statement gives [x] (variable 0) an expression known there, the third gives [b]
    (variable 3) one that is not; no later statement gives them another. *)
Example vx_settled : let d := vx_at 1 in exists vars, history deck_arith no_fun no_eval true d /\ scope deck_arith d vars /\
  exec deck_arith no_fun no_eval true (SAssign "x" vx_two) d = inr (vx_at 2) /\ writes deck_arith d (vx_at 2) (SAssign "x" vx_two) 0 vx_two /\
  unwritten deck_arith no_fun no_eval true 0 (vx_at 2) (vx_at 4) /\ finish deck_arith no_eval (vx_at 4) = Accepted _ vx_end /\
  settled deck_arith no_fun d vars vx_two /\ value_of vx_end "x" = Some 6%Z.
Proof.
  exists (lookup deck_arith (vx_at 1)). split; [apply vx_history; lia|]. split; [apply lookup_scope; apply vx_wf; lia|]. split; [apply vx_exec; [lia|reflexivity]|].
  split; [split; [reflexivity|]; apply vx_means; [lia|vm_compute; reflexivity]|]. split.
  - eapply u_exec; [apply (vx_exec 2); [lia|reflexivity]| |].
    + intros e Wr. destruct (decl_cases deck_arith no_fun no_eval true no_eval_typed (vx_at 2) TInt ("b", Some vx_sum) [] (vx_at 3) 0 (vx_wf 2 ltac:(lia)) (vx_exec 2 _ ltac:(lia) eq_refl)) as [K _].
      apply (K ltac:(vm_compute; lia) e Wr).
    + eapply u_exec; [apply (vx_exec 3); [lia|reflexivity]| |constructor]. intros e [_ [path [C M]]]. revert M. apply (vx_not_means 3 "a"); [lia|vm_compute; discriminate|exact C].
  - split; [exact vx_finish|]. split; [|vm_compute; reflexivity].
    apply (calm_settled deck_arith no_fun no_eval); [apply vx_wf; lia|apply lookup_scope; apply vx_wf; lia|vm_compute; reflexivity].
Qed.
Example vx_unsettled : let d := vx_at 2 in exists vars, history deck_arith no_fun no_eval true d /\ scope deck_arith d vars /\
  exec deck_arith no_fun no_eval true (SDecl TInt ("b", Some vx_sum) []) d = inr (vx_at 3) /\ writes deck_arith d (vx_at 3) (SDecl TInt ("b", Some vx_sum) []) 3 vx_sum /\
  unwritten deck_arith no_fun no_eval true 3 (vx_at 3) (vx_at 4) /\ finish deck_arith no_eval (vx_at 4) = Accepted _ vx_end /\
  ~ settled deck_arith no_fun d vars vx_sum /\ value_of vx_end "b" = Some 6%Z /\ swf deck_arith vars no_fun vx_sum /\ schains vars no_fun late_largest vx_sum.
Proof.
  exists (lookup deck_arith (vx_at 2)). split; [apply vx_history; lia|]. split; [apply lookup_scope; apply vx_wf; lia|]. split; [apply vx_exec; [lia|reflexivity]|].
  split; [exists "b"; split; [left; reflexivity|]; exists (nth 0 (d_blocks (vx_at 3)) (mkBlock "" "" None [] [])); split; [vm_compute; reflexivity|vm_compute; auto 10]|]. split.
  - eapply u_exec; [apply (vx_exec 3); [lia|reflexivity]| |constructor]. intros e [_ [path [C M]]]. revert M. apply (vx_not_means 3 "a"); [lia|vm_compute; discriminate|exact C].
  - split; [exact vx_finish|]. split; [|split; [vm_compute; reflexivity|]].
    + intros S. apply (calm_settled deck_arith no_fun no_eval) in S; [vm_compute in S; discriminate|apply vx_wf; lia|apply lookup_scope; apply vx_wf; lia].
    + split.
      * apply accepted. assert (G : (match build_sum deck_arith (lookup deck_arith (vx_at 2)) no_fun vx_sum with Built _ => true | Failed _ => false end) = true) by (vm_compute; reflexivity).
        destruct (build_sum deck_arith (lookup deck_arith (vx_at 2)) no_fun vx_sum) as [e|]; [eauto|discriminate].
      * cbn [schains tchains fchains achains vx_sum vt map snd]. repeat split; apply late_short; cbn; lia.
Qed.

(** A deck text: [deck1] of [DeckExamples]. *)
Example deck1_accepts : accepts deck_arith no_fun no_eval true deck1 (new_deck deck_arith "main" "main" bodies) deck1_end /\ exists b n x, declares (d_blocks deck1_end) b n x /\ value_of deck1_end "d" = Some 15%Z.
Proof.
  destruct deck1_parsed as [R [_ [P V]]]. split; [exists (toks_of deck1); auto|].
  exists 0, "a", 2. split; [|apply V]. exists (nth 0 (d_blocks deck1_end) (mkBlock "" "" None [] [])). split; [vm_compute; reflexivity|vm_compute; auto 10].
Qed.

(** ** A value that cannot be converted *)
Definition digit (c : ascii) : bool := ((48 <=? Z.of_N (N_of_ascii c)) && (Z.of_N (N_of_ascii c) <=? 57))%Z.
Definition number (s : string) : option Z := if forallb digit (list_ascii_of_string s) then Some (decimal 0 s) else None.
(** As [deck_arith], but a string that is no number cannot be converted to one. *)
Definition strict_arith : arith :=
  mkArith Z Z.add Z.sub Z.mul Z.div Z.pow Z.opp (fun z => z) Some (fun _ => "") (fun _ => "") number number.
Definition strict_eval (_ : fsig) (_ : list (value strict_arith)) : result (value strict_arith) := Undefined.
Example strict_typed : typed_functions strict_arith strict_eval.
Proof. intros f args v E. discriminate. Qed.
Definition titled : list (string * class strict_arith) :=
  [("main", mkClass _ [] (Some [("title", ReadOnly _ (VStr "") (Some (VStr "abc")))]))].
Example titled_typed : typed_classes strict_arith titled.
Proof. intros name c l n k [E|[]] Hc Hl; inversion E; subst; inversion Hc; subst; destruct Hl as [Q|[]]; inversion Q; subst; reflexivity. Qed.
Example titled_once : NoDup (map fst titled).
Proof. repeat constructor. cbn. tauto. Qed.
Definition sx_text := "int i = 3; i = title;".
Definition sx0 := new_deck strict_arith "main" "main" titled.
Definition sx_end : deck strict_arith :=
  match parse_deck strict_arith no_fun strict_eval true 1000 (toks_of sx_text) sx0 with Accepted _ d => d | _ => sx0 end.
Definition sx_title : sum := Sum None (vt "title") [].
Definition sx_p : list statement := [SDecl TInt ("i", Some (Sum None (num "3") [])) []; SAssign "i" sx_title].
Definition sx_at (k : nat) : deck strict_arith := match run strict_arith no_fun strict_eval true (firstn k sx_p) (start strict_arith sx0) with inr d => d | inl _ => sx0 end.
Lemma sx_run : forall k, k <= 2 -> run strict_arith no_fun strict_eval true (firstn k sx_p) (start strict_arith sx0) = inr (sx_at k).
Proof.
  intros k L. unfold sx_at. destruct (run strict_arith no_fun strict_eval true (firstn k sx_p) (start strict_arith sx0)) eqn:E; [|reflexivity]. exfalso.
  assert (G : forall k, k <= 2 -> (if run strict_arith no_fun strict_eval true (firstn k sx_p) (start strict_arith sx0) then true else false) = false).
  { clear. intros k L. do 3 (destruct k as [|k]; [vm_compute; reflexivity|]). lia. }
  specialize (G k L). rewrite E in G. discriminate.
Qed.
Lemma unconverted : exists p d d' x v vars,
  accepts strict_arith no_fun strict_eval true sx_text (new_deck strict_arith "main" "main" titled) d' /\ consists sx_text p /\
  last_writer strict_arith no_fun strict_eval true p (start strict_arith (new_deck strict_arith "main" "main" titled)) x d sx_title /\ scope strict_arith d vars /\
  declares (d_blocks d') 0 "i" x /\ nth_error (d_vars d') x = Some v /\ v_type v = TInt /\
  value_in strict_arith no_fun strict_eval d' vars sx_title TInt = BadCast /\ v_val v = VInt 0.
Proof.
  assert (H : history strict_arith no_fun strict_eval true (sx_at 1)) by (eapply history_run; [|apply sx_run; lia]; apply h_start; apply h_new; exact titled_typed).
  pose proof (history_wf _ _ _ _ strict_typed _ H) as W.
  exists sx_p, (sx_at 1), sx_end, 1, (var_at strict_arith sx_end 1), (lookup strict_arith (sx_at 1)). split; [|split; [|split; [|split; [|split]]]].
  - exists (toks_of sx_text). split; [apply read_by; vm_compute; reflexivity|]. apply (parses_by _ _ _ _ 1000).
    + unfold sx_end, sx0. assert (G : (match parse_deck strict_arith no_fun strict_eval true 1000 (toks_of sx_text) (new_deck strict_arith "main" "main" titled) with Accepted _ _ => true | _ => false end) = true) by (vm_compute; reflexivity).
      destruct (parse_deck strict_arith no_fun strict_eval true 1000 (toks_of sx_text) (new_deck strict_arith "main" "main" titled)); try discriminate. reflexivity.
    + discriminate.
  - exists (toks_of sx_text). split; [apply read_by; vm_compute; reflexivity|]. vm_compute; repeat (constructor; [split; [reflexivity|first [exact I|reflexivity]]|]); constructor.
  - exists (firstn 1 sx_p), (SAssign "i" sx_title), [], (sx_at 2), (sx_at 2). split; [reflexivity|]. split; [apply sx_run; lia|]. split.
    + pose proof (sx_run 2 ltac:(lia)) as R. change (firstn 2 sx_p) with (firstn 1 sx_p ++ [SAssign "i" sx_title])%list in R. apply run_snoc in R. destruct R as [d1 [R1 R2]]. rewrite sx_run in R1 by lia. congruence.
    + split; [reflexivity|]. split; [|constructor]. split; [reflexivity|]. exists (split ":" "i"). assert (C : components ":" "i" (split ":" "i")) by (apply components_split; reflexivity). split; [exact C|].
      apply (get_variable_means _ _ (wf_b _ _ W) _ "i" _ 1 C). vm_compute. reflexivity.
  - apply lookup_scope. exact W.
  - exists (nth 0 (d_blocks sx_end) (mkBlock "" "" None [] [])). split; [vm_compute; reflexivity|vm_compute; auto].
  - split; [vm_compute; reflexivity|]. split; [vm_compute; reflexivity|]. split; vm_compute; reflexivity.
Qed.
