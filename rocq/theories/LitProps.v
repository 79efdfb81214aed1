(** C62, C63: references and bibliographies.

    [LitModel] holds the program, [LitSpec] the words used here. *)
From Coq Require Import List Bool String Ascii.
From Verif Require Import LitModel LitSpec LitProofs LitExamples.
Import ListNotations.
Local Open Scope string_scope.

(** C62.  After any calls of [addReference] the BibTeX file holds one entry per key, in the order of the
    keys, with the data given first for the key. *)
Theorem C62_bibtex : forall l, exists refs texts,
  write_bibtex (after_calls l) = joined texts /\ Forall2 entry_of refs texts /\ ascending (map bib_key refs) /\
  (forall k, In k (map bib_key refs) <-> exists d r, In (d, r) (calls l) /\ bib_key r = k) /\
  forall r, In r refs -> first_with (calls l) (bib_key r) r.
Proof. exact bibliography. Qed.
Print Assumptions C62_bibtex.

(** The LaTeX file lists each key once, with each of its descriptions once. *)
Theorem C62_information : forall l title subtitle bibfile, exists items : list (string * list string),
  write_information title subtitle bibfile (after_calls l) = information_text title subtitle bibfile items /\
  ascending (map fst items) /\ (forall k, In k (map fst items) <-> exists d r, In (d, r) (calls l) /\ bib_key r = k) /\
  forall k ds, In (k, ds) items -> ascending ds /\ forall d, In d ds <-> described (calls l) k d.
Proof. exact information. Qed.
Print Assumptions C62_information.

(** C63.  A constructed reference returns the key, the kind and the arguments, and is empty elsewhere.
    Missing: the school of the two kinds of theses and the organization of proceedings, contributions
    to proceedings and manuals. *)
Theorem C63_arguments_partial : forall k key arg,
  bib_key (construct k key arg) = key /\ publ (construct k key arg) = k /\
  (forall f, In f (params k) -> ~ misplaced k f -> get (construct k key arg) f = arg f) /\
  (forall f, ~ In f (params k) -> f <> Edition -> get (construct k key arg) f = "").
Proof. exact kept. Qed.
Print Assumptions C63_arguments_partial.

(** Those are stored as the edition, in manuals not at all. *)
Theorem C63_misplaced_refuted : forall k f, misplaced k f -> In f (params k) /\ forall key arg,
  get (construct k key arg) f = "" /\
  get (construct k key arg) Edition = match k with manual => arg Edition | _ => arg f end.
Proof. exact argument_misplaced. Qed.
Print Assumptions C63_misplaced_refuted.

(** C63, for calls: the argument at each position is returned by the getter of the name it is declared
    with, arguments not given are empty.  Missing: the same ones. *)
Theorem C63_positions_partial : forall k key vals,
  bib_key (construct_call k key vals) = key /\ publ (construct_call k key vals) = k /\
  (forall i f, nth_error (declared k) i = Some (field_name f) -> ~ misplaced k f ->
     get (construct_call k key vals) f = nth i vals "") /\
  (forall f, ~ In (field_name f) (declared k) -> f <> Edition -> get (construct_call k key vals) f = "").
Proof. exact positions_kept. Qed.
Print Assumptions C63_positions_partial.

Example C63_positions_hypotheses : nth_error (declared manual) 1 = Some (field_name Author) /\ ~ misplaced manual Author /\
  get (construct_call manual "k" ["A title"; "An author"]) Author = "An author" /\
  get (construct_call manual "k" ["A title"; "An author"]) Year = "".
Proof. exact ex_positions. Qed.
