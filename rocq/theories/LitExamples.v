(** Concrete bibliographies for LitProps.v. *)
From Coq Require Import List Bool String Ascii Sorted.
From Verif Require Import LitModel LitSpec LitProofs.
Import ListNotations.
Local Open Scope string_scope.

Lemma kept : forall k key arg, bib_key (construct k key arg) = key /\ publ (construct k key arg) = k /\
  (forall f, In f (params k) -> ~ misplaced k f -> get (construct k key arg) f = arg f) /\
  (forall f, ~ In f (params k) -> f <> Edition -> get (construct k key arg) f = "").
Proof.
  intros k key arg. destruct (construct_key k key arg) as [H1 H2]. split; [exact H1|]. split; [exact H2|]. split.
  - intros f. apply argument_kept.
  - intros f Hf He. rewrite constructed.
    + destruct (existsb (field_beq f) (params k)) eqn:E; [|reflexivity]. exfalso. apply Hf. apply existsb_exists in E. destruct E as [g [Hg E]]. apply internal_field_dec_bl in E. subst g. exact Hg.
    + intros Hm. apply Hf. apply (argument_misplaced k f Hm).
    + left. exact He.
Qed.
Lemma lost : exists k f, In f (params k) /\ forall key arg, arg f <> "" -> get (construct k key arg) f <> arg f.
Proof. exists phdthesis, School. split; [cbn; tauto|]. intros key arg H E. apply H. rewrite <- E. reflexivity. Qed.

Definition ref_a : reference := construct book "A1" (fun f => match f with Author => "Doe" | Title => "Grids" | Edition => "2" | _ => "" end).
Definition ref_a' : reference := construct misc "A1" (fun f => match f with Author => "Other" | _ => "" end).
Definition ref_z : reference := construct phdthesis "Z9" (fun f => match f with Author => "Roe" | School => "MIT" | _ => "" end).
Example book_kept : get ref_a Edition = "2" /\ get ref_a Author = "Doe" /\ In Edition (params book) /\ ~ misplaced book Edition.
Proof. cbn. tauto. Qed.
Example thesis : get ref_z School = "" /\ get ref_z Edition = "MIT".
Proof. split; reflexivity. Qed.
Example some_calls : map (fun x => (fst x, fst (snd x))) (after_calls [("z", ref_z); ("b", ref_a); ("a", ref_a'); ("b", ref_a)]) =
  [("A1", ["a"; "b"]); ("Schmitz2018", [schnek_description]); ("Z9", ["z"])].
Proof. vm_compute. reflexivity. Qed.
Example first_kept : map (fun x => get (snd (snd x)) Author) (after_calls [("z", ref_z); ("b", ref_a); ("a", ref_a'); ("b", ref_a)]) = ["Doe"; "Schmitz, Holger"; "Roe"].
Proof. vm_compute. reflexivity. Qed.
Example an_entry : print ref_a = entry_text "book" "A1" [("author", "Doe"); ("title", "Grids"); ("edition", "2")].
Proof. vm_compute. reflexivity. Qed.

(** ** Arguments by their position *)
Lemma declared_params : forall k, declared k = map field_name (params k).
Proof. intros []; reflexivity. Qed.
Fixpoint no_repeat (l : list field) : bool :=
  match l with [] => true | f :: l' => negb (existsb (field_beq f) l') && no_repeat l' end.
Lemma bind_nth : forall ps vals i f, no_repeat ps = true -> nth_error ps i = Some f -> bind_args ps vals f = nth i vals "".
Proof.
  induction ps as [|p ps IH]; intros vals i f D E; [destruct i; discriminate E|].
  simpl in D. apply andb_true_iff in D. destruct D as [D1 D2].
  destruct i as [|i]; simpl in E.
  - injection E as ->. destruct vals as [|v vals]; [reflexivity|]. simpl.
    rewrite (internal_field_dec_lb f f eq_refl). reflexivity.
  - destruct vals as [|v vals]; simpl; [destruct i; reflexivity|].
    destruct (field_beq f p) eqn:Q; [|apply IH; assumption].
    apply internal_field_dec_bl in Q. subst p. exfalso. apply negb_true_iff in D1.
    assert (X : existsb (field_beq f) ps = true); [|rewrite X in D1; discriminate D1].
    apply existsb_exists. exists f. split; [eapply nth_error_In; exact E|apply internal_field_dec_lb; reflexivity].
Qed.
Lemma params_no_repeat : forall k, no_repeat (params k) = true.
Proof. intros []; reflexivity. Qed.

Lemma positions_kept : forall k key vals,
  bib_key (construct_call k key vals) = key /\ publ (construct_call k key vals) = k /\
  (forall i f, nth_error (declared k) i = Some (field_name f) -> ~ misplaced k f ->
     get (construct_call k key vals) f = nth i vals "") /\
  (forall f, ~ In (field_name f) (declared k) -> f <> Edition -> get (construct_call k key vals) f = "").
Proof.
  intros k key vals. unfold construct_call. destruct (kept k key (bind_args (params k) vals)) as (K1 & K2 & K3 & K4).
  split; [exact K1|]. split; [exact K2|]. rewrite declared_params. split.
  - intros i f E M. rewrite nth_error_map in E. destruct (nth_error (params k) i) as [g|] eqn:G; [|discriminate E].
    simpl in E. assert (g = f) by (injection E as E; destruct g, f; try discriminate E; reflexivity). subst g.
    rewrite K3; [|eapply nth_error_In; exact G|exact M]. apply bind_nth; [apply params_no_repeat|exact G].
  - intros f H N. apply K4; [|exact N]. intros H'. apply H. apply in_map. exact H'.
Qed.

Example ex_positions : nth_error (declared manual) 1 = Some (field_name Author) /\ ~ misplaced manual Author /\
  get (construct_call manual "k" ["A title"; "An author"]) Author = "An author" /\
  get (construct_call manual "k" ["A title"; "An author"]) Year = "".
Proof. repeat split; try reflexivity. intros []. Qed.
