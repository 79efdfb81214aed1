(** Decks read with a registry of classes, and cases for the theorems. *)
From Coq Require Import ZArith List Bool Arith String Lia.
From Verif Require Import ScanModel ExprModel ExprSyntax DeckModel DeckSyntax DeckMeaning DeckSpec DeckExamples BlockModel BlockSpec TextSpec TextProofs
  ClassModel ClassSpec ClassProofs ClassDeckModel.
Import ListNotations.
Local Open Scope nat_scope.
Local Open Scope string_scope.

Section Deck.
  Variable A : arith.
  Variable reg : string -> option fsig.
  Variable funs : fsig -> list (value A) -> result (value A).
  Hypothesis funs_typed : typed_functions A funs.
  Variable impl : nat -> list (string * pkind A).

  Lemma classes_once program s b : ClassModel.run empty program = Some s -> NoDup (map fst (deck_classes A impl s b)).
  Proof.
    intros E. pose proof (run_start program) as H. rewrite E in H. destruct H as [_ [own Ag]].
    unfold deck_classes. destruct (object s b) as [[m r]|]; [|constructor]. rewrite map_map. cbn [fst].
    apply (a_keys _ _ _ Ag m).
  Qed.
  Lemma classes_are program s b g r name c : ClassModel.run empty program = Some s -> member (rev program) b = Some (g, r) ->
    (In (name, c) (deck_classes A impl s b) <->
     known (rev program) g name = true /\ c = mkClass A (added (rev program) g name) (option_map impl (set_to (rev program) g name))).
  Proof.
    intros E M. pose proof (run_start program) as H. rewrite E in H. destruct H as [_ [own Ag]].
    unfold deck_classes. rewrite (object_member _ _ _ _ Ag), M. rewrite in_map_iff. split.
    - intros ([n d] & Eq & I). cbn [fst snd] in Eq. apply find_in in I; [|apply (a_keys _ _ _ Ag)].
      destruct (a_found _ _ _ Ag _ _ _ I) as (_ & E2 & E3). rewrite E2 in Eq. injection Eq as <- <-. auto.
    - intros (K & ->). destruct (find (nth g (maps s) []) name) as [d|] eqn:F.
      + destruct (a_found _ _ _ Ag _ _ _ F) as (_ & E2 & E3). exists (name, d). cbn [fst snd]. rewrite E2. split; [reflexivity|].
        apply find_in; [apply (a_keys _ _ _ Ag)|exact F].
      + destruct (a_unknown _ _ _ Ag _ _ F) as (E1 & _). congruence.
  Qed.

  Lemma deck_nesting program s b g : ClassModel.run empty program = Some s -> member (rev program) b = Some (g, true) ->
    (forall c, typed_classes A [("", mkClass A [] (Some (impl c)))]) ->
    forall root rootclass text d', accepts A reg funs true text (new_deck A root rootclass (deck_classes A impl s b)) d' ->
    forall i blk o outer, nth_error (d_blocks d') i = Some blk -> b_parent blk = Some o -> nth_error (d_blocks d') o = Some outer ->
    In (b_class blk) (added (rev program) g (b_class outer)).
  Proof.
    intros E M T root rootclass text d' Ac i blk o outer H1 H2 H3.
    assert (Ty : typed_classes A (deck_classes A impl s b)).
    { intros n c l p k I C L. apply (classes_are program s b g true n c E M) in I. destruct I as [_ ->]. cbn in C.
      destruct (set_to (rev program) g n) as [x|]; [|discriminate]. cbn in C. injection C as <-. exact (T x _ _ _ _ _ (or_introl eq_refl) eq_refl L). }
    destruct (text_allowed A reg funs true funs_typed _ (classes_once program s b E) Ty root rootclass eq_refl text d' Ac i blk o outer H1 H2 H3)
      as (c & I & J).
    apply (classes_are program s b g true _ c E M) in I. destruct I as [_ ->]. exact J.
  Qed.
End Deck.

(** A program that registers classes before and after the parser is made (object 1, a copy). *)
Definition body_program : list op :=
  [New true; Register 0 "item"; SetClass 0 0; Copy 0; Register 1 "main"; AddChild 1 "group"; SetClass 1 1;
   Get 0 "main"; AddChild 2 "item"; Get 1 "group"; AddChild 3 "item"].
Definition body_impl (c : nat) : list (string * pkind deck_arith) :=
  match c with
  | 0 => [("n", Default _ (zint 0) (zint 4)); ("id", Constant _ (zint 8))]
  | _ => [("x", Required _ (zint 0)); ("t", ReadOnly _ (zint 0) (Some (zint 2)))]
  end.
Lemma body_typed c : typed_classes deck_arith [("", mkClass deck_arith [] (Some (body_impl c)))].
Proof.
  intros name x l n k [E|[]] Hc Hl. injection E as <- <-. cbn in Hc. injection Hc as <-.
  destruct c as [|c]; destruct Hl as [Q|[Q|[]]]; injection Q as <- <-; exact I || reflexivity.
Qed.
Definition body_state : ClassModel.state := match ClassModel.run empty body_program with Some s => s | None => empty end.
Lemma body_runs :
  ClassModel.run empty body_program = Some body_state /\ registered_once (rev body_program) = true /\
  member (rev body_program) 1 = Some (0, true) /\ deck_classes deck_arith body_impl body_state 1 = bodies /\
  added (rev body_program) 0 "main" = ["item"; "group"].
Proof. split; [reflexivity|]. split; [reflexivity|]. split; [reflexivity|]. split; reflexivity. Qed.
Lemma body_accepted : accepts deck_arith no_fun no_eval true deck1 (new_deck deck_arith "main" "main" (deck_classes deck_arith body_impl body_state 1)) deck1_end.
Proof.
  destruct body_runs as (_ & _ & _ & E & _). rewrite E. exists (toks_of deck1). destruct deck1_parsed as (R & _ & P & _). split; assumption.
Qed.

(** A class registered again: what was added to it is lost, and the first reference must not be used. *)
Definition again_program : list op := [New true; Register 0 "main"; AddChild 0 "item"; Register 0 "main"].
Lemma again_lost :
  ever_added again_program 0 "main" "item" /\
  match ClassModel.run empty again_program with Some s => ClassModel.has_child s 0 "main" "item" = Some false | None => False end /\
  ClassModel.run empty (again_program ++ [AddChild 0 "item"]) = None.
Proof.
  split; [|split; reflexivity]. exists [New true; Register 0 "main"], 0, [Register 0 "main"]. split; reflexivity.
Qed.
Lemma again_refutes : exists program s b g parent child,
  ClassModel.run empty program = Some s /\ registry (rev program) b = Some g /\ ever_added program g parent child /\
  ClassModel.has_child s b parent child = Some false /\
  exists k, reference (rev program) k = Some (g, parent) /\ forall c, ClassModel.run empty (program ++ [AddChild k c]) = None.
Proof.
  destruct again_lost as (E & _ & _). exists again_program. eexists. exists 0, 0, "main", "item".
  split; [reflexivity|]. split; [reflexivity|]. split; [exact E|]. split; [reflexivity|]. exists 0. split; reflexivity.
Qed.
