(** Decks for classes with array parameters. *)
From Coq Require Import ZArith List Bool String Ascii Lia.
From Verif Require Import ScanModel ParseModel ParseSpec ExprModel ExprSyntax DepModel DeckModel DeckSyntax DeckMeaning DeckSpec DeckExamples BlockModel BlockSpec BlockExamples TextSpec TextProofs ParamModel ParamSpec ParamProofs.
Import ListNotations.
Local Open Scope string_scope.

Definition zs := map zint.
Definition field_calls : list (setup_call deck_arith) :=
  [AddArrayParameter _ "pos" (zs [0; 0; 0]%Z) (Same _ (zint (-1))) ReadWrite letters;
   AddParameter _ "n" (zint 0) (Some (zint 4)) ReadWrite;
   AddArrayParameter _ "size" (zs [0; 0]%Z) (NoDefault _) ReadWrite letters;
   AddArrayParameter _ "" (zs [8; 9]%Z) (NoDefault _) OnlyRead letters].
Definition field_cs : class_calls deck_arith := [("main", ([], Some field_calls))].
Definition field_params := match setup_calls deck_arith field_calls with Some l => l | None => [] end.
Definition field_classes : list (string * class deck_arith) := [("main", mkClass _ [] (Some field_params))].
Definition field_deck := "posy = 3; sizex = 2; sizey = posy + x;".
Definition field_end := deck_of (parse_text false field_classes field_deck).

Example field_classes_of : classes_of deck_arith field_cs field_classes.
Proof.
  constructor; [|constructor]. split; [reflexivity|]. split; [reflexivity|]. exists field_params. split; [vm_compute; reflexivity|reflexivity].
Qed.
Example field_calls_ok : forall name allowed calls, In (name, (allowed, Some calls)) field_cs -> typed_calls deck_arith calls /\ different_names deck_arith calls.
Proof.
  intros name allowed calls [E|[]]. injection E as <- <- <-. split.
  - intros c [<-|[<-|[<-|[<-|[]]]]]; cbn; try exact I; try reflexivity. intros m H. intuition (subst; reflexivity).
  - split; [cbn; constructor; [intros []|constructor]|].
    split; [cbn; constructor; [cbn; intuition discriminate|constructor; [cbn; intuition discriminate|constructor; [intros []|constructor]]]|].
    intros name var ds p ext I. split.
    + assert (E : ext = letters) by (destruct I as [I|[I|[I|[I|[]]]]]; inversion I; reflexivity). rewrite E. repeat constructor; cbn; intuition discriminate.
    + intros i n (c & Ec & ->) Q. assert (E : ext = letters) by (destruct I as [I|[I|[I|[I|[]]]]]; inversion I; reflexivity). subst ext.
      cbn in Q. destruct Q as [Q|[]].
      destruct I as [I|[I|[I|[I|[]]]]]; inversion I; subst; try discriminate Q.
      cbn in Q. injection Q as <-. do 6 (destruct i as [|i]; [discriminate|]). destruct i; discriminate.
Qed.
Example field_accepted : accepts deck_arith no_fun no_eval false field_deck (new_deck deck_arith "main" "main" field_classes) field_end.
Proof. exists (toks_of field_deck). split; [apply read_by; vm_compute; reflexivity|apply accepted_by; vm_compute; reflexivity]. Qed.
(** The C++ variables after the evaluation: [pos], [n], [size] and the read-only coordinates. *)
Example field_evaluated :
  match evaluate_all deck_arith no_eval 0 field_end with
  | inr d => d_mem d = zs [-1; 3; -1; 4; 2; 11; 8; 9]%Z
  | inl _ => False
  end.
Proof. vm_compute. reflexivity. Qed.
Example field_array : In (AddArrayParameter _ "size" (zs [0; 0]%Z) (NoDefault _) ReadWrite letters) field_calls /\ component "size" letters 1 "sizey".
Proof. split; [cbn; tauto|]. exists "y"%char. split; reflexivity. Qed.
(** Seven components and six letters. *)
Example too_long : setup_calls deck_arith [AddArrayParameter _ "a" (zs [1; 2; 3; 4; 5; 6; 7]%Z) (NoDefault _) ReadWrite letters] = None.
Proof. reflexivity. Qed.

(** A scalar that is called like a component. *)
Definition clash_calls : list (setup_call deck_arith) :=
  [AddParameter _ "vx" (zint 0) (Some (zint 7)) ReadWrite; AddArrayParameter _ "v" (zs [0; 0]%Z) (Same _ (zint 1)) ReadWrite letters].
Definition clash_params := match setup_calls deck_arith clash_calls with Some l => l | None => [] end.
Definition clash_classes : list (string * class deck_arith) := [("main", mkClass _ [] (Some clash_params))].
Definition clash_deck := "vx = 5;".
Lemma clash_lost :
  exists d d1, setup_calls deck_arith clash_calls = Some clash_params /\
    accepts deck_arith no_fun no_eval false clash_deck (new_deck deck_arith "main" "main" clash_classes) d /\
    value_of d "vx" = Some 5%Z /\ evaluate_all deck_arith no_eval 0 d = inr d1 /\ d_mem d1 = zs [0; 1; 1]%Z.
Proof.
  set (d := deck_of (parse_text false clash_classes clash_deck)).
  assert (Q : match evaluate_all deck_arith no_eval 0 d with inr d1 => Some (d_mem d1) | inl _ => None end = Some (zs [0; 1; 1]%Z)) by (vm_compute; reflexivity).
  exists d. destruct (evaluate_all deck_arith no_eval 0 d) as [e|d1] eqn:E; [discriminate|]. exists d1. split; [vm_compute; reflexivity|].
  split; [exists (toks_of clash_deck); split; [apply read_by; vm_compute; reflexivity|apply accepted_by; vm_compute; reflexivity]|].
  split; [vm_compute; reflexivity|]. split; [reflexivity|]. congruence.
Qed.

(** Without an extension the letters are x, y, z, u, v, w. *)
Lemma default_letters A name var ds p l : setup_calls A [AddArrayParameter A name var ds p letters] = Some l ->
  map fst l = map (fun c => name ++ c) (firstn (List.length var) ["x"; "y"; "z"; "u"; "v"; "w"]).
Proof.
  intros E. cbn in E. unfold add_array in E. destruct (Nat.leb_spec (List.length var) (String.length letters)) as [L|L]; [|discriminate].
  injection E as <-. rewrite app_nil_r. cbn in L.
  do 7 (destruct var as [|? var]; [reflexivity|]). cbn in L. exfalso. lia.
Qed.
