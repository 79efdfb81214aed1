(** C101: the BibTeX file is read back by BibTeX.

    [LitModel] holds the program, [LitSpec] and [BibSpec] the words used here. *)
From Coq Require Import List Bool String Ascii.
From Verif Require Import LitModel LitSpec BibSpec BibProofs.
Import ListNotations.
Local Open Scope string_scope.

(** C101.  After any calls of [addReference] with citation keys and values with balanced braces, BibTeX reads from the file
    one entry per key, with the kind, the key and all data given first for that key, and nothing else.
    Missing: other keys and values (see the refutation). *)
Theorem C101_read_back_partial : forall l,
  (forall d r, In (d, r) l -> citation_key (bib_key r) /\ forall f, balanced (get r f)) -> exists refs es,
  read_bibtex (write_bibtex (after_calls l)) = Some es /\ Forall2 holds refs es /\ ascending (map bib_key refs) /\
  (forall k, In k (map bib_key refs) <-> exists d r, In (d, r) (calls l) /\ bib_key r = k) /\
  forall r, In r refs -> first_with (calls l) (bib_key r) r.
Proof. exact file_read. Qed.
Print Assumptions C101_read_back_partial.

Example C101_hypotheses : (forall d r, In (d, r) [("a book", ref_good)] -> citation_key (bib_key r) /\ forall f, balanced (get r f)) /\
  option_map (map (fun e => (e_kind e, e_key e, hd ("", "") (e_fields e)))) (read_bibtex (write_bibtex (after_calls [("a book", ref_good)]))) =
    Some [("book", "Doe2020", ("author", "Doe, J.")); ("article", "Schmitz2018", ("author", "Schmitz, Holger"))].
Proof. exact good_file. Qed.

(** Nothing is escaped or checked: a key with a comma or a value with an opening brace spoils the file, a value with a closing
    brace becomes other data. *)
Theorem C101_unchecked_refuted :
  read_bibtex (write_bibtex (after_calls [("d", ref_key)])) = None /\
  read_bibtex (write_bibtex (after_calls [("d", ref_open)])) = None /\
  option_map (map e_fields) (read_bibtex (print ref_closed)) =
    Some [[("author", "Doe"); ("title", "a "); ("key", " brace"); ("note", "n")]] /\ get ref_closed Key = "".
Proof. exact bad_files. Qed.
Print Assumptions C101_unchecked_refuted.
