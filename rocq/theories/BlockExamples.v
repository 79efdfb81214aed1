(** The theorems about block objects in the form of [BlockProps], and concrete trees. *)
From Coq Require Import ZArith List Bool String Ascii Lia Arith.
From Verif Require Import ScanModel ParseModel ParseSpec ExprModel ExprSyntax DepModel DepSpec DeckModel DeckSyntax DeckMeaning DeckSpec
  DeckRunProofs DeckInvProofs DeckFinishProofs DeckLookupProofs DeckEffectProofs DeckObjectProofs DeckExamples
  BlockModel BlockSpec BlockTreeProofs BlockDataProofs BlockContainerProofs BlockParamProofs BlockEvalProofs BlockInitProofs.
Import ListNotations.
Local Open Scope nat_scope.
Local Open Scope string_scope.

(** ** Accepted decks *)
Section Accepted.
  Variable A : arith.
  Variable reg : string -> option fsig.
  Variable funs : fsig -> list (value A) -> result (value A).
  Variable restricted : bool.
  Hypothesis funs_typed : typed_functions A funs.
  Variable classes : list (string * class A).
  Hypothesis once : NoDup (map fst classes).
  Hypothesis typed : typed_classes A classes.
  Hypothesis distinct : distinct_params A classes.
  Notation run := (run A reg funs restricted).
  Notation fresh root rootclass := (start A (new_deck A root rootclass classes)).

  Lemma final_registered : forall root rootclass prog d d', run prog (fresh root rootclass) = inr d -> finish A funs d = Accepted A d' ->
    forall i o, nth_error (d_objs d') i = Some o ->
    exists c l, In (o_class o, c) classes /\ c_impl A c = Some l /\
      (forall n, (exists x m, binds A d' i n x m) <-> In n (map fst l)) /\
      forall n k, In (n, k) l -> exists x m v, binds A d' i n x m /\ declares (d_blocks d') (o_vars o) n x /\ nth_error (d_vars d') x = Some v /\ param_state A (d_mem d') k m v.
  Proof.
    intros root rootclass prog d d' ran done i o Ho.
    destruct (deck_pinv A reg funs restricted funs_typed classes once typed distinct root rootclass prog d ran) as [W P0].
    destruct (finish_pinv A funs classes d d' W P0 done) as [W' [P _]].
    destruct (p_good _ _ _ P i o Ho) as [c [l [H1 [H2 [H3 [H4 H5]]]]]]. exists c, l. split; [exact H1|]. split; [exact H2|]. split.
    - intros n. split.
      + intros [x [m [o' [p [Eo [Hp _]]]]]]. assert (o' = o) by congruence. subst o'. destruct (H4 n p Hp) as [k [Hk _]]. apply in_map_iff. exists (n, k). auto.
      + intros Hn. apply in_map_iff in Hn. destruct Hn as [[n' k] [<- Hk]]. destruct (H5 _ _ Hk) as [p Hp]. exists (p_var p), (p_mem p), o, p. auto.
    - intros n k Hk. destruct (H5 n k Hk) as [p Hp]. destruct (H4 n p Hp) as [k' [Hk' [D [v [Hv S]]]]].
      assert (k' = k). { pose proof (distinct _ _ _ H1 H2) as N. apply in_sfind in Hk; [|exact N]. apply in_sfind in Hk'; [|exact N]. congruence. } subst k'.
      exists (p_var p), (p_mem p), v. split; [exists o, p; auto|]. auto.
  Qed.
  Lemma final_objs : forall root rootclass prog d d', run prog (fresh root rootclass) = inr d -> finish A funs d = Accepted A d' -> d_objs d' = d_objs d.
  Proof.
    intros root rootclass prog d d' ran done.
    destruct (deck_pinv A reg funs restricted funs_typed classes once typed distinct root rootclass prog d ran) as [W P0].
    apply (finish_pinv A funs classes d d' W P0 done).
  Qed.
  Lemma final_separate : forall root rootclass prog d d', run prog (fresh root rootclass) = inr d -> finish A funs d = Accepted A d' ->
    forall i j n m x y c, binds A d' i n x (Some c) -> binds A d' j m y (Some c) -> i = j /\ n = m /\ x = y.
  Proof.
    intros root rootclass prog d d' ran done i j n m x y c. unfold binds. rewrite (final_objs _ _ _ _ _ ran done).
    exact (cells_separate A reg funs restricted funs_typed classes once typed distinct root rootclass prog d ran i j n m x y c).
  Qed.
  Lemma final_evaluated : forall root rootclass prog d d', run prog (fresh root rootclass) = inr d -> finish A funs d = Accepted A d' ->
    forall i, i < List.length (d_objs d') ->
    (forall d1, evaluate_all A funs i d' = inr d1 ->
       same_but_memory A d' d1 /\
       (forall n v c, receives A d' i n v c -> ready A funs d' v /\ nth_error (d_mem d1) c = Some (v_val v)) /\
       (forall c, (forall n v, ~ receives A d' i n v c) -> nth_error (d_mem d1) c = nth_error (d_mem d') c)) /\
    (forall e, evaluate_all A funs i d' = inl e ->
       e <> EvalUndefined /\ exists n v c, receives A d' i n v c /\ ~ ready A funs d' v /\ (forall m, e = NotInitialised m -> m = n /\ v_init v = false)).
  Proof.
    intros root rootclass prog d d' ran done. exact (params_evaluated A reg funs restricted funs_typed classes once typed distinct root rootclass prog d d' ran done).
  Qed.
  Lemma final_required : forall root rootclass prog d d', run prog (fresh root rootclass) = inr d -> finish A funs d = Accepted A d' ->
    forall i o c l n t x m v, nth_error (d_objs d') i = Some o -> In (o_class o, c) classes -> c_impl A c = Some l -> In (n, Required A t) l ->
    binds A d' i n x m -> nth_error (d_vars d') x = Some v ->
    (v_init v = true <-> exists before name e after d1 path, prog = (before ++ SAssign name e :: after)%list /\ run before (fresh root rootclass) = inr d1 /\
       components ":"%char name path /\ means (d_blocks d1) (d_cursor d1) path x).
  Proof.
    intros root rootclass prog d d' ran done i o c l n t x m v Ho Hc Hl Hn Hb Hv.
    destruct (deck_pinv A reg funs restricted funs_typed classes once typed distinct root rootclass prog d ran) as [W P0].
    pose proof (final_objs _ _ _ _ _ ran done) as O. unfold binds in Hb. rewrite O in Ho, Hb.
    destruct (accepted_spec A funs d W d' done) as [_ [_ [_ [_ [_ [_ [_ [_ [V _]]]]]]]]].
    pose proof Hb as [o' [p [Ho' [Hp [Hx _]]]]]. assert (o' = o) by congruence. subst o'. destruct (p_good _ _ _ P0 i o Ho) as [c' [l' [_ [_ [_ [H4 _]]]]]]. destruct (H4 n p Hp) as [k [_ [_ [v0 [Hv0 _]]]]]. rewrite Hx in Hv0.
    destruct (V x v0 Hv0) as [w [Hw _]]. assert (Q : v_init v = v_init v0) by (assert (E : v = mkVar A w (v_expr v0) (v_type v0) (v_fixed v0) (v_init v0) (v_ro v0) (v_id v0)) by congruence; rewrite E; reflexivity).
    rewrite Q. eapply (required_assigned A reg funs restricted funs_typed classes once typed distinct root rootclass prog d ran); eauto.
  Qed.
  Lemma final_tree : forall root rootclass prog d d', run prog (fresh root rootclass) = inr d -> finish A funs d = Accepted A d' ->
    linked (d_objs d') /\ (implemented A classes rootclass -> is_root (d_objs d') 0 /\ forall j, j < List.length (d_objs d') -> within (d_objs d') 0 j).
  Proof.
    intros root rootclass prog d d' ran done. rewrite (final_objs _ _ _ _ _ ran done). exact (deck_linked A reg funs restricted funs_typed root rootclass classes prog d once typed ran).
  Qed.
End Accepted.

(** ** A deck with three levels *)
Example bodies_distinct : distinct_params deck_arith bodies.
Proof. intros cls c l [E|[E|[E|[]]]] Hl; inversion E; subst; inversion Hl; subst; repeat constructor; cbn; intuition discriminate. Qed.
Definition three := "x = 7; item p { n = 5; item q { } item s { n = x + 1; } }".
Definition three_end := deck_of (parse_text false bodies three).
Example three_parsed : read three (toks_of three) /\ shallow 99 (tokens deck_arith (toks_of three)) /\
  parses_to deck_arith no_fun no_eval false (toks_of three) (new_deck deck_arith "main" "main" bodies) (Accepted _ three_end) /\
  map (fun o => (o_name o, o_class o, o_parent o, o_children o)) (d_objs three_end) =
    [("main", "main", None, [1]); ("p", "item", Some 0, [2; 3]); ("q", "item", Some 1, []); ("s", "item", Some 1, [])].
Proof.
  split; [apply read_by; vm_compute; reflexivity|]. split; [apply few_shallow; vm_compute; lia|]. split; [apply accepted_by; vm_compute; reflexivity|]. vm_compute. reflexivity.
Qed.
Example three_run : exists p d, run deck_arith no_fun no_eval false p (start deck_arith (new_deck deck_arith "main" "main" bodies)) = inr d /\ finish deck_arith no_eval d = Accepted _ three_end.
Proof.
  destruct three_parsed as [R [S [P _]]]. destruct (ended_history deck_arith no_fun no_eval false three _ _ _ (h_new _ _ _ _ "main" "main" bodies bodies_typed) R P) as [p [d1 [P1 [P2 [P3 P4]]]]]; [left; eauto|]. eauto.
Qed.
Example three_linked : linked (d_objs three_end) /\ is_root (d_objs three_end) 0 /\ child_of (d_objs three_end) 0 1 /\ child_of (d_objs three_end) 1 2 /\ forall j, j < 4 -> within (d_objs three_end) 0 j.
Proof.
  destruct three_run as [p [d [R F]]]. destruct (final_tree deck_arith no_fun no_eval false no_eval_typed bodies bodies_once bodies_typed bodies_distinct _ _ _ _ _ R F) as [L K].
  assert (I : implemented deck_arith bodies "main") by (eexists; eexists; split; [right; left; reflexivity|reflexivity]). destruct (K I) as [K1 K2].
  split; [exact L|]. split; [exact K1|]. split; [eexists; split; [vm_compute; reflexivity|reflexivity]|]. split; [eexists; split; [vm_compute; reflexivity|reflexivity]|].
  intros j Hj. apply K2. exact Hj.
Qed.

(** ** C55 *)
Example phases_meets : exists order, in_order (d_objs three_end) 0 order /\ phases order = (map (pair Evaluate) [0; 1; 2; 3] ++ map (pair RegisterData) [0; 1; 2; 3] ++ map (pair PreInit) [0; 1; 2; 3] ++ map (pair Init) [0; 1; 2; 3] ++ map (pair PostInit) [0; 1; 2; 3])%list.
Proof.
  destruct three_linked as [L [R _]]. destruct (init_phases _ L 0 0 R (or_introl eq_refl)) as [order [O E]]. exists order. split; [exact O|].
  destruct (E (list (phase * nat)) unit (fun ph i s => inr (s ++ [(ph, i)])%list) []) as [n Hn]. specialize (Hn (n + 5) ltac:(lia)).
  assert (T : init_all (d_objs three_end) (fun ph i s => inr (s ++ [(ph, i)])%list : unit + list (phase * nat)) (n + 5) 0 [] = Some (inr (map (pair Evaluate) [0; 1; 2; 3] ++ map (pair RegisterData) [0; 1; 2; 3] ++ map (pair PreInit) [0; 1; 2; 3] ++ map (pair Init) [0; 1; 2; 3] ++ map (pair PostInit) [0; 1; 2; 3])%list)).
  { replace (n + 5) with (S (n + 4)) by lia. vm_compute. reflexivity. }
  rewrite T in Hn. assert (Q : forall l s, perform (fun ph i s => inr (s ++ [(ph, i)])%list : unit + list (phase * nat)) l s = inr (s ++ l)%list).
  { induction l as [|[a b] l IH]; intros s; cbn; [rewrite app_nil_r; reflexivity|]. rewrite IH, <- app_assoc. reflexivity. }
  rewrite Q in Hn. assert (H : forall (a b : list (phase * nat)), Some (inr a : unit + _) = Some (inr b) -> b = a) by (intros a b Hab; congruence). exact (H _ _ Hn).
Qed.
Lemma deep_receiver : exists toks d, read three toks /\
  parses_to deck_arith no_fun no_eval false toks (new_deck deck_arith "main" "main" bodies) (Accepted _ d) /\
  within (d_objs d) 0 2 /\ forall St Exn (hook : phase -> nat -> St -> Exn + St) s fuel, init_all (d_objs d) hook fuel 2 s = None.
Proof.
  exists (toks_of three), three_end. split; [apply three_parsed|]. split; [apply three_parsed|]. destruct three_linked as [L [R [C1 [C2 W]]]]. split; [apply W; lia|].
  exact (init_hangs _ 2 1 0 C2 C1).
Qed.

(** ** C56 *)
(** In the tree of the deck, [p] (1) and [main] (0) register [k], [s] (3) registers [j]. *)
Definition data3 : registry nat := add_data (add_data (add_data [] 0 "k" 100) 3 "j" 101) 1 "k" 102.
Lemma holds_three : holds data3 1 "k" 102 /\ holds data3 0 "k" 100 /\ holds data3 3 "j" 101.
Proof.
  split; [|split].
  - exists [], [((3, "j"), 101); ((0, "k"), 100)]. split; [reflexivity|intros q []].
  - exists [((1, "k"), 102); ((3, "j"), 101)], []. split; [reflexivity|]. intros q [Q|[Q|[]]]; discriminate.
  - exists [((1, "k"), 102)], [((0, "k"), 100)]. split; [reflexivity|]. intros q [Q|[]]; discriminate.
Qed.
Lemma around_three : around (d_objs three_end) 2 [2; 1; 0].
Proof. destruct three_linked as [L [R [C1 [C2 W]]]]. apply (a_in _ 2 1 _ C2). apply (a_in _ 1 0 _ C1). apply a_root. exact R. Qed.
Lemma held_three : forall i k, held data3 i k -> (i = 1 /\ k = "k") \/ (i = 0 /\ k = "k") \/ (i = 3 /\ k = "j").
Proof.
  intros i k [p [l1 [l2 [E _]]]]. assert (H : In ((i, k), p) data3) by (rewrite E; apply in_or_app; right; left; reflexivity).
  destruct H as [H|[H|[H|[]]]]; inversion H; auto.
Qed.
Example nearest_meets : exists objs (r : registry nat) l, linked objs /\ plain "k" /\ around objs 2 l /\ l = ([2] ++ 1 :: [0])%list /\ holds r 1 "k" 102 /\ (forall b, In b [2] -> ~ held r b "k") /\
  retrieve objs r 2 "k" = Found 102.
Proof.
  exists (d_objs three_end), data3, [2; 1; 0]. split; [apply three_linked|]. split; [intros [Q|[]]; discriminate|]. split; [apply around_three|]. split; [reflexivity|]. split; [apply holds_three|]. split.
  - intros b [<-|[]] H. apply held_three in H. destruct H as [[H _]|[[H _]|[_ H]]]; discriminate.
  - vm_compute. reflexivity.
Qed.
Example elsewhere_meets : exists objs (r : registry nat) l, linked objs /\ plain "j" /\ around objs 2 l /\ last l 0 = 0 /\ (forall b, In b l -> ~ held r b "j") /\
  topmost objs r 0 "j" 3 /\ holds r 3 "j" 101 /\ retrieve objs r 2 "j" = Found 101.
Proof.
  exists (d_objs three_end), data3, [2; 1; 0]. split; [apply three_linked|]. split; [intros [Q|[]]; discriminate|]. split; [apply around_three|]. split; [reflexivity|].
  split; [intros b Hb H; apply held_three in H; destruct H as [[_ H]|[[_ H]|[H _]]]; try discriminate; subst b; destruct Hb as [Q|[Q|[Q|[]]]]; discriminate|]. split; [|split; [apply holds_three|vm_compute; reflexivity]].
  split; [apply three_linked; lia|]. split; [exists 101; apply holds_three|]. intros k _ _ Hk H. apply held_three in H. destruct H as [[_ H]|[[_ H]|[H _]]]; try discriminate; contradiction.
Qed.
Example path_meets : retrieve (d_objs three_end) data3 2 "p.s.j" = Found 101 /\ retrieve (d_objs three_end) data3 2 "q.k" = Missing /\ retrieve (d_objs three_end) (add_data data3 2 "j" 7) 0 "j" = Duplicate.
Proof. vm_compute. auto. Qed.
Lemma pointer_far : exists toks d, read three toks /\
  parses_to deck_arith no_fun no_eval false toks (new_deck deck_arith "main" "main" bodies) (Accepted _ d) /\
  exists (star : nat -> nat) (rp r : registry nat), within (d_objs d) 0 2 /\ holds r 2 "k" 5 /\ ~ held rp 2 "k" /\ ~ held rp 1 "k" /\ star 9 = 8 /\ holds rp 0 "k" 9 /\
    retrieve_pointer star (d_objs d) rp r 2 "k" = Found 8.
Proof.
  exists (toks_of three), three_end. split; [apply three_parsed|]. split; [apply three_parsed|]. exists (fun n => n - 1), (add_data [] 0 "k" 9), (add_data [] 2 "k" 5).
  split; [apply three_linked; lia|]. split; [exists [], []; split; [reflexivity|intros q []]|].
  assert (N : forall i, held (add_data [] 0 "k" 9) i "k" -> i = 0).
  { intros i [p [l1 [l2 [E _]]]]. assert (H : In ((i, "k"), p) (add_data [] 0 "k" 9)) by (rewrite E; apply in_or_app; right; left; reflexivity). destruct H as [H|[]]. inversion H; reflexivity. }
  split; [intros H; apply N in H; discriminate|]. split; [intros H; apply N in H; discriminate|]. split; [reflexivity|]. split; [exists [], []; split; [reflexivity|intros q []]|]. vm_compute. reflexivity.
Qed.
Lemma pointer_spec : forall (Ptr PPtr : Type) (star : PPtr -> Ptr) objs (rp : registry PPtr) (r : registry Ptr), linked objs -> forall i key, i < List.length objs ->
  ((forall x, ~ candidate objs rp i key x) -> retrieve_pointer star objs rp r i key = retrieve objs r i key) /\
  (forall p, retrieve objs rp i key = Found p -> retrieve_pointer star objs rp r i key = Found (star p)) /\
  (retrieve objs rp i key = Duplicate -> retrieve_pointer star objs rp r i key = Duplicate).
Proof.
  intros Ptr PPtr star objs rp r L i key Hi. destruct (retrieve_spec objs rp L i key Hi) as [_ [M _]]. unfold retrieve_pointer. split; [|split].
  - intros N. apply M in N. rewrite N. reflexivity.
  - intros p ->. reflexivity.
  - intros ->. reflexivity.
Qed.

(** ** C75 *)
Definition numbers (d : deck deck_arith) : list (option Z) := map (fun v => match v with VInt z => Some z | _ => None end) (d_mem d).
Example evaluate_meets : exists p d, run deck_arith no_fun no_eval false p (start deck_arith (new_deck deck_arith "main" "main" bodies)) = inr d /\
  finish deck_arith no_eval d = Accepted _ three_end /\
  numbers three_end = [Some 0; Some 2; Some 0; Some 0; Some 0]%Z /\
  match evaluate_all deck_arith no_eval 0 three_end with inr d1 => numbers d1 | _ => [] end = [Some 7; Some 2; Some 5; Some 4; Some 8]%Z /\
  match evaluate_all deck_arith no_eval 1 three_end with inr d1 => numbers d1 | _ => [] end = [Some 0; Some 2; Some 5; Some 4; Some 8]%Z.
Proof. destruct three_run as [p [d [R F]]]. exists p, d. split; [exact R|]. split; [exact F|]. vm_compute. repeat split. Qed.
Definition unassigned := "int a = 1; item { n = a; }".
Example unassigned_reported : exists toks d, read unassigned toks /\
  parses_to deck_arith no_fun no_eval true toks (new_deck deck_arith "main" "main" bodies) (Accepted _ d) /\
  match evaluate_all deck_arith no_eval 0 d with inl (NotInitialised n) => n = "x" | _ => False end.
Proof.
  exists (toks_of unassigned), (deck_of (parse_text true bodies unassigned)). split; [apply read_by; vm_compute; reflexivity|]. split; [apply accepted_by; vm_compute; reflexivity|]. vm_compute. reflexivity.
Qed.
Lemma second_param : forall (ps : list (string * param)) a b, map (fun q => (fst q, p_var (snd q), p_mem (snd q))) ps = [a; b] ->
  exists p, In (fst (fst b), p) ps /\ p_var p = snd (fst b) /\ p_mem p = snd b.
Proof.
  intros [|[n p] [|[m q] [|z ps]]] a b E; cbn in E; try discriminate. injection E as _ E2. subst b. exists q. cbn. auto.
Qed.
Example required_meets : exists o c l, nth_error (d_objs three_end) 0 = Some o /\ In (o_class o, c) bodies /\ c_impl _ c = Some l /\ In ("x", Required _ (zint 0)) l /\
  binds deck_arith three_end 0 "x" 0 (Some 0) /\ exists v, nth_error (d_vars three_end) 0 = Some v /\ v_init v = true.
Proof.
  assert (Q : match nth_error (d_objs three_end) 0, nth_error (d_vars three_end) 0 with
              | Some o, Some v => (o_class o, map (fun q => (fst q, p_var (snd q), p_mem (snd q))) (o_params o), v_init v) | _, _ => ("", [], false) end
            = ("main", [("t", 1, Some 1); ("x", 0, Some 0)], true)) by (vm_compute; reflexivity).
  unfold binds. set (objs := d_objs three_end) in *. set (vars := d_vars three_end) in *. clearbody objs vars.
  destruct (nth_error objs 0) as [o|] eqn:Eo; [|discriminate]. destruct (nth_error vars 0) as [v|] eqn:Ev; [|discriminate]. injection Q as Q1 Q2 Q3.
  exists o. do 2 eexists. split; [reflexivity|]. rewrite Q1. split; [right; left; reflexivity|]. split; [reflexivity|]. split; [left; reflexivity|]. split.
  - destruct (second_param _ _ _ Q2) as [p [P1 [P2 P3]]]. exists o, p. auto.
  - exists v. auto.
Qed.

(** ** C76 *)
Lemma containers_new : forall objs, linked objs -> forall holder fits (St Exn : Type) (view : St -> containers) (hook : phase -> nat -> St -> Exn + St), container_hooks objs holder fits view hook ->
  forall r i s s' fuel, is_root objs r -> i = r \/ child_of objs r i -> (forall p, view s p = []) -> init_all objs hook fuel i s = Some (inr s') ->
  forall p o, within objs r p -> nth_error objs p = Some o -> view s' p = if holder p then filter fits (o_children o) else [].
Proof.
  intros objs L holder fits St Exn view hook H r i s s' fuel Hr Hi E0 E p o Hp Ho. rewrite (containers_filled objs L holder fits view hook H r i s s' fuel Hr Hi E p o Hp Ho), E0. reflexivity.
Qed.
Definition plain_hook (objs : list bobj) (ph : phase) (i : nat) (cs : containers) : unit + containers :=
  match ph with PreInit => inr (child_pre_init objs (fun p => Nat.eqb p 1) (fun _ => true) i cs) | _ => inr cs end.
Lemma plain_hooks : forall objs, container_hooks objs (fun p => Nat.eqb p 1) (fun _ => true) (fun s => s) (plain_hook objs).
Proof. intros objs ph i s s' E p. destruct ph; cbn in E; inversion E; reflexivity. Qed.
Example containers_meets : linked (d_objs three_end) /\ container_hooks (d_objs three_end) (fun p => Nat.eqb p 1) (fun _ => true) (fun s => s) (plain_hook (d_objs three_end)) /\
  is_root (d_objs three_end) 0 /\ exists cs, init_all (d_objs three_end) (plain_hook (d_objs three_end)) 2 0 (fun _ => []) = Some (inr cs) /\ cs 1 = [2; 3] /\ cs 0 = [].
Proof.
  split; [apply three_linked|]. split; [apply plain_hooks|]. split; [apply three_linked|].
  assert (Q : match init_all (d_objs three_end) (plain_hook (d_objs three_end)) 2 0 (fun _ => []) with Some (inr cs) => (cs 1, cs 0) | _ => ([], []) end = ([2; 3], [])) by (vm_compute; reflexivity).
  destruct (init_all (d_objs three_end) (plain_hook (d_objs three_end)) 2 0 (fun _ => [])) as [[e|cs]|]; [discriminate| |discriminate]. exists cs. injection Q as Q1 Q2. auto.
Qed.
Lemma containers_twice : exists objs (hook : phase -> nat -> containers -> unit + containers) cs cs2, linked objs /\ is_root objs 0 /\
  container_hooks objs (fun p => Nat.eqb p 1) (fun _ => true) (fun s => s) hook /\
  init_all objs hook 2 0 (fun _ => []) = Some (inr cs) /\ init_all objs hook 2 0 cs = Some (inr cs2) /\ cs 1 = [2; 3] /\ cs2 1 = [2; 3; 2; 3].
Proof.
  destruct containers_meets as [L [H [R [cs [E [C1 C0]]]]]].
  assert (K : exists cs2, init_all (d_objs three_end) (plain_hook (d_objs three_end)) 2 0 cs = Some (inr cs2)).
  { assert (Q : match init_all (d_objs three_end) (plain_hook (d_objs three_end)) 2 0 cs with Some (inr _) => true | _ => false end = true) by (vm_compute; reflexivity).
    destruct (init_all (d_objs three_end) (plain_hook (d_objs three_end)) 2 0 cs) as [[e|cs2]|]; [discriminate|eauto|discriminate]. }
  destruct K as [cs2 K].
  exists (d_objs three_end), (plain_hook (d_objs three_end)), cs, cs2. split; [exact L|]. split; [exact R|]. split; [exact H|]. split; [exact E|]. split; [exact K|]. split; [exact C1|].
  assert (W : within (d_objs three_end) 0 1) by (apply three_linked; lia).
  assert (Q : match nth_error (d_objs three_end) 1 with Some o => o_children o | None => [] end = [2; 3]) by (vm_compute; reflexivity).
  destruct (nth_error (d_objs three_end) 1) as [o|] eqn:Q1; [|discriminate].
  pose proof (containers_filled _ L _ _ (fun s => s) _ H 0 0 cs cs2 2 R (or_introl eq_refl) K 1 o W Q1) as F. cbn beta in F. rewrite C1, Q in F. exact F.
Qed.

(** ** Registering *)
Lemma holds_latest : forall (Ptr : Type) (calls : list (nat * string * Ptr)) i key p,
  holds (fold_left (fun r c => add_data r (fst (fst c)) (snd (fst c)) (snd c)) calls []) i key p <->
  exists before after, calls = (before ++ ((i, key), p) :: after)%list /\ forall q, ~ In ((i, key), q) after.
Proof.
  intros Ptr calls i key p. assert (E : forall r, fold_left (fun r c => add_data r (fst (fst c)) (snd (fst c)) (snd c)) calls r = (rev calls ++ r)%list).
  { induction calls as [|[[j k] x] calls IH]; intros r; cbn [fold_left rev fst snd app]; [reflexivity|]. rewrite IH. unfold add_data. rewrite <- app_assoc. reflexivity. }
  rewrite E, app_nil_r. split.
  - intros [l1 [l2 [Q N]]]. exists (rev l2), (rev l1). split.
    + rewrite <- (rev_involutive calls), Q, rev_app_distr. cbn [rev]. rewrite <- app_assoc. reflexivity.
    + intros q Hq. apply in_rev in Hq. exact (N q Hq).
  - intros [before [after [-> N]]]. exists (rev after), (rev before). split.
    + rewrite rev_app_distr. cbn [rev]. rewrite <- app_assoc. reflexivity.
    + intros q Hq. apply in_rev in Hq. exact (N q Hq).
Qed.
