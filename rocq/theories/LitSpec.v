(** What bibliographies should contain. *)
From Coq Require Import List Bool String Ascii Sorted.
From Verif Require Import LitModel.
Import ListNotations.
Local Open Scope string_scope.

(** A line break. *)
Definition newline : string := String "010" "".
(** The name of a field in BibTeX. *)
Definition field_name (f : field) : string :=
  match f with
  | Address => "address" | Annote => "annote" | Author => "author" | Booktitle => "booktitle" | Chapter => "chapter"
  | Crossref => "crossref" | Edition => "edition" | Editor => "editor" | Eprint => "eprint" | Howpublished => "howpublished"
  | Institution => "institution" | Journal => "journal" | Key => "key" | Month => "month" | Note => "note" | Number => "number"
  | Organization => "organization" | Pages => "pages" | Publisher => "publisher" | School => "school" | Series => "series"
  | Title => "title" | Type_ => "type" | Url => "url" | Doi => "doi" | Volume => "volume" | Year => "year"
  end.
(** An entry of a BibTeX file: its kind, its key and its fields. *)
Definition entry_text (kind key : string) (fields : list (string * string)) : string :=
  "@" ++ kind ++ "{" ++ key ++
  fold_right (fun x rest => "," ++ newline ++ "  " ++ fst x ++ "={" ++ snd x ++ "}" ++ rest) (newline ++ "}" ++ newline ++ newline) fields.

Definition kind_name (k : kind) : string :=
  match k with
  | article => "article" | book => "book" | booklet => "booklet" | inbook => "inbook" | incollection => "incollection"
  | inproceedings => "inproceedings" | manual => "manual" | mastersthesis => "mastersthesis" | misc => "misc"
  | phdthesis => "phdthesis" | proceedings => "proceedings" | techreport => "techreport" | unpublished => "unpublished"
  end.
(** The entry of a reference: every field that is not empty, once, and nothing else. *)
Definition entry_of (r : reference) (text : string) : Prop :=
  exists fields, text = entry_text (kind_name (publ r)) (bib_key r) fields /\ NoDup (map fst fields) /\
  forall n v, In (n, v) fields <-> exists f, n = field_name f /\ get r f = v /\ v <> "".
(** Entries, each followed by an empty line. *)
Definition joined (texts : list string) : string := fold_right (fun t rest => t ++ newline ++ rest) "" texts.
(** The LaTeX document: every key with its descriptions. *)
Definition information_text (title subtitle bibfile : string) (items : list (string * list string)) : string :=
  "\documentclass{article}" ++ newline ++ "\begin{document}" ++ newline ++ "\section*{" ++ title ++ "}" ++ newline ++
  subtitle ++ newline ++ "\begin{itemize}" ++
  fold_right (fun x rest => "\item " ++ fold_right (fun d more => d ++ newline ++ more) ("\cite{" ++ fst x ++ "}" ++ newline ++ rest) (snd x))
    ("\end{itemize}" ++ newline ++ "\bibliographystyle{acm}" ++ newline ++ "\bibliography{" ++ bibfile ++ "}" ++ newline ++ "\end{document}" ++ newline) items.

(** The constructor arguments that end up elsewhere. *)
Definition misplaced (k : kind) (f : field) : Prop :=
  match k, f with
  | (mastersthesis | phdthesis), School | (inproceedings | manual | proceedings), Organization => True
  | _, _ => False
  end.

(** The arguments of the constructors after the key, as src/tools/literature.hpp declares them, in their
    order. *)
Definition declared (k : kind) : list string :=
  match k with
  | article => ["author"; "title"; "journal"; "year"; "volume"; "pages"; "number"; "month"; "note"; "key"]
  | book => ["author"; "editor"; "title"; "publisher"; "year"; "volume"; "number"; "series"; "address"; "edition"; "month"; "note"; "key"]
  | booklet => ["title"; "author"; "howpublished"; "address"; "month"; "year"; "note"; "key"]
  | inbook => ["author"; "editor"; "title"; "chapter"; "pages"; "publisher"; "year"; "volume"; "number"; "series"; "type"; "address"; "edition"; "month"; "note"; "key"]
  | incollection => ["author"; "title"; "booktitle"; "publisher"; "year"; "editor"; "volume"; "number"; "series"; "type"; "chapter"; "pages"; "address"; "edition"; "month"; "note"; "key"]
  | inproceedings => ["author"; "title"; "booktitle"; "year"; "editor"; "volume"; "number"; "series"; "pages"; "address"; "month"; "organization"; "publisher"; "note"; "key"]
  | manual => ["title"; "author"; "organization"; "address"; "edition"; "year"; "publisher"; "note"; "key"]
  | mastersthesis => ["author"; "title"; "school"; "year"; "type"; "address"; "month"; "note"; "key"]
  | misc => ["author"; "title"; "howpublished"; "month"; "year"; "note"; "key"]
  | phdthesis => ["author"; "title"; "school"; "year"; "type"; "address"; "month"; "note"; "key"]
  | proceedings => ["title"; "year"; "editor"; "volume"; "number"; "series"; "address"; "month"; "organization"; "publisher"; "note"; "key"]
  | techreport => ["author"; "title"; "institution"; "year"; "type"; "number"; "address"; "month"; "note"; "key"]
  | unpublished => ["author"; "title"; "note"; "year"; "month"; "key"]
  end.

(** All calls of [addReference], the one by the manager itself first. *)
Definition calls (l : list (string * reference)) : list (string * reference) := (schnek_description, schnek_reference) :: l.
(** A manager after these calls of [addReference(description, reference)]. *)
Definition after_calls (l : list (string * reference)) : records := fold_left (fun rs x => add_reference (fst x) (snd x) rs) l new_manager.
Definition first_with (l : list (string * reference)) (key : string) (r : reference) : Prop :=
  exists before d after, l = (before ++ (d, r) :: after)%list /\ bib_key r = key /\ forall x, In x before -> bib_key (snd x) <> key.
Definition described (l : list (string * reference)) (key d : string) : Prop := exists r, In (d, r) l /\ bib_key r = key.
(** Strings in ascending order, none twice. *)
Definition ascending (l : list string) : Prop := StronglySorted (fun a b => String.compare a b = Lt) l.
