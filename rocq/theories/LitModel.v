(** Model of src/tools/literature.hpp and src/tools/literature.cpp. *)
From Coq Require Import List Bool String Ascii.
Import ListNotations.
Local Open Scope string_scope.

(** The members of [LiteratureReference] that make up a BibTeX entry — literature.hpp:47-76. *)
Inductive field :=
  | Address | Annote | Author | Booktitle | Chapter | Crossref | Edition | Editor | Eprint | Howpublished
  | Institution | Journal | Key | Month | Note | Number | Organization | Pages | Publisher | School | Series
  | Title | Type_ | Url | Doi | Volume | Year.
Scheme Equality for field.

(** [PublicationType] — literature.hpp:44-46. *)
Inductive kind :=
  | article | book | booklet | inbook | incollection | inproceedings | manual | mastersthesis | misc | phdthesis
  | proceedings | techreport | unpublished.

(** [LiteratureReference] — literature.hpp:41-79; the copy constructor and the assignment
    (literature.hpp:84-149) copy all members. *)
Record reference := mkRef { bib_key : string; publ : kind; get : field -> string }.

(** The setters — literature.hpp:298-436. *)
Definition set_field (r : reference) (f : field) (v : string) : reference :=
  mkRef (bib_key r) (publ r) (fun g => if field_beq g f then v else get r g).
Definition set_kind (r : reference) (k : kind) : reference := mkRef (bib_key r) k (get r).

(** The parameters of the constructors, after the key, under their names — literature.hpp:441-762.
    Omitted arguments are the empty string. *)
Definition params (k : kind) : list field :=
  match k with
  | article => [Author; Title; Journal; Year; Volume; Pages; Number; Month; Note; Key]
  | book => [Author; Editor; Title; Publisher; Year; Volume; Number; Series; Address; Edition; Month; Note; Key]
  | booklet => [Title; Author; Howpublished; Address; Month; Year; Note; Key]
  | inbook => [Author; Editor; Title; Chapter; Pages; Publisher; Year; Volume; Number; Series; Type_; Address; Edition; Month; Note; Key]
  | incollection => [Author; Title; Booktitle; Publisher; Year; Editor; Volume; Number; Series; Type_; Chapter; Pages; Address; Edition; Month; Note; Key]
  | inproceedings => [Author; Title; Booktitle; Year; Editor; Volume; Number; Series; Pages; Address; Month; Organization; Publisher; Note; Key]
  | manual => [Title; Author; Organization; Address; Edition; Year; Publisher; Note; Key]
  | mastersthesis => [Author; Title; School; Year; Type_; Address; Month; Note; Key]
  | misc => [Author; Title; Howpublished; Month; Year; Note; Key]
  | phdthesis => [Author; Title; School; Year; Type_; Address; Month; Note; Key]
  | proceedings => [Title; Year; Editor; Volume; Number; Series; Address; Month; Organization; Publisher; Note; Key]
  | techreport => [Author; Title; Institution; Year; Type_; Number; Address; Month; Note; Key]
  | unpublished => [Author; Title; Note; Year; Month; Key]
  end.

(** The statements [setX(y)] of the constructors, in their order, as [(X, y)] — literature.hpp:441-761. *)
Definition body (k : kind) : list (field * field) :=
  match k with
  | article => [(Author, Author); (Title, Title); (Journal, Journal); (Year, Year); (Volume, Volume); (Number, Number); (Pages, Pages); (Month, Month); (Note, Note); (Key, Key)]
  | book => [(Author, Author); (Editor, Editor); (Title, Title); (Publisher, Publisher); (Year, Year); (Volume, Volume); (Number, Number); (Series, Series); (Address, Address); (Edition, Edition); (Month, Month); (Note, Note); (Key, Key)]
  | booklet => [(Title, Title); (Author, Author); (Howpublished, Howpublished); (Address, Address); (Month, Month); (Year, Year); (Note, Note); (Key, Key)]
  | inbook => [(Author, Author); (Editor, Editor); (Title, Title); (Chapter, Chapter); (Pages, Pages); (Publisher, Publisher); (Year, Year); (Volume, Volume); (Number, Number); (Series, Series); (Type_, Type_); (Address, Address); (Edition, Edition); (Month, Month); (Note, Note); (Key, Key)]
  | incollection => [(Author, Author); (Title, Title); (Booktitle, Booktitle); (Publisher, Publisher); (Year, Year); (Editor, Editor); (Volume, Volume); (Number, Number); (Series, Series); (Type_, Type_); (Chapter, Chapter); (Pages, Pages); (Address, Address); (Edition, Edition); (Month, Month); (Note, Note); (Key, Key)]
  | inproceedings => [(Author, Author); (Title, Title); (Booktitle, Booktitle); (Year, Year); (Editor, Editor); (Volume, Volume); (Number, Number); (Series, Series); (Pages, Pages); (Address, Address); (Month, Month); (Edition, Organization); (Publisher, Publisher); (Note, Note); (Key, Key)]
  | manual => [(Title, Title); (Author, Author); (Edition, Organization); (Address, Address); (Edition, Edition); (Year, Year); (Publisher, Publisher); (Note, Note); (Key, Key)]
  | mastersthesis => [(Author, Author); (Title, Title); (Edition, School); (Year, Year); (Type_, Type_); (Address, Address); (Month, Month); (Note, Note); (Key, Key)]
  | misc => [(Author, Author); (Title, Title); (Howpublished, Howpublished); (Month, Month); (Year, Year); (Note, Note); (Key, Key)]
  | phdthesis => [(Author, Author); (Title, Title); (Edition, School); (Year, Year); (Type_, Type_); (Address, Address); (Month, Month); (Note, Note); (Key, Key)]
  | proceedings => [(Title, Title); (Year, Year); (Editor, Editor); (Volume, Volume); (Number, Number); (Series, Series); (Address, Address); (Month, Month); (Edition, Organization); (Publisher, Publisher); (Note, Note); (Key, Key)]
  | techreport => [(Author, Author); (Title, Title); (Institution, Institution); (Year, Year); (Type_, Type_); (Number, Number); (Address, Address); (Month, Month); (Note, Note); (Key, Key)]
  | unpublished => [(Author, Author); (Title, Title); (Note, Note); (Year, Year); (Month, Month); (Key, Key)]
  end.

(** The constructor of the class for publications of kind [k] with the arguments [arg]. *)
Definition construct (k : kind) (key : string) (arg : field -> string) : reference :=
  fold_left (fun r x => set_field r (fst x) (arg (snd x))) (body k) (set_kind (mkRef key article (fun _ => "")) k).

(** A call of that constructor: the values are bound to the parameters by their position, parameters
    that are not reached have their default [""] — literature.hpp:441-762. *)
Fixpoint bind_args (ps : list field) (vals : list string) (f : field) : string :=
  match ps, vals with
  | p :: ps', v :: vals' => if field_beq f p then v else bind_args ps' vals' f
  | _, _ => ""
  end.
Definition construct_call (k : kind) (key : string) (vals : list string) : reference :=
  construct k key (bind_args (params k) vals).

(** ** Output *)

(** [getPublicationTypeString] — literature.cpp:32-77. *)
Definition kind_string (k : kind) : string :=
  match k with
  | article => "article" | book => "book" | booklet => "booklet" | inbook => "inbook" | incollection => "incollection"
  | inproceedings => "inproceedings" | manual => "manual" | mastersthesis => "mastersthesis" | misc => "misc"
  | phdthesis => "phdthesis" | proceedings => "proceedings" | techreport => "techreport" | unpublished => "unpublished"
  end.

Definition newline : string := String "010" "".
(** One [if (ref.getX() != "") out << ",\n  x={" << ref.getX() << "}";]. *)
Definition line (r : reference) (f : field) (name : string) : string :=
  if String.eqb (get r f) "" then "" else "," ++ newline ++ "  " ++ name ++ "={" ++ get r f ++ "}".

(** The fields in the order of [schnek::operator<<] — literature.cpp:175-222. *)
Definition printed : list (field * string) :=
  [(Author, "author"); (Title, "title"); (Journal, "journal"); (Booktitle, "booktitle"); (Edition, "edition"); (Volume, "volume");
   (Chapter, "chapter"); (Number, "number"); (Month, "month"); (Year, "year"); (Pages, "pages"); (Editor, "editor"); (Series, "series");
   (Institution, "institution"); (Organization, "organization"); (School, "school"); (Publisher, "publisher"); (Address, "address");
   (Annote, "annote"); (Crossref, "crossref"); (Eprint, "eprint"); (Howpublished, "howpublished"); (Key, "key"); (Note, "note");
   (Type_, "type"); (Url, "url"); (Doi, "doi")].
Definition print (r : reference) : string :=
  "@" ++ kind_string (publ r) ++ "{" ++ bib_key r ++
  String.concat "" (map (fun x => line r (fst x) (snd x)) printed) ++ newline ++ "}" ++ newline ++ newline.

(** ** The manager *)

(** [std::set<std::string>] and [std::map<std::string, LitRecord>], in ascending order —
    literature.hpp:768-771. *)
Fixpoint insert (x : string) (l : list string) : list string :=
  match l with
  | [] => [x]
  | y :: l' => match String.compare x y with Lt => x :: l | Eq => l | Gt => y :: insert x l' end
  end.
Definition records := list (string * (list string * reference)).

(** [addReference] — literature.cpp:134-149: a known key gets another description. *)
Fixpoint add_reference (description : string) (r : reference) (rs : records) : records :=
  match rs with
  | [] => [(bib_key r, ([description], r))]
  | (k, (ds, old)) :: rs' =>
      match String.compare (bib_key r) k with
      | Lt => (bib_key r, ([description], r)) :: rs
      | Eq => (k, (insert description ds, old)) :: rs'
      | Gt => (k, (ds, old)) :: add_reference description r rs'
      end
  end.

(** The constructor — literature.cpp:119-132. *)
Definition schnek_reference : reference :=
  set_field (construct article "Schmitz2018" (fun f => match f with
    | Author => "Schmitz, Holger"
    | Title => "Schnek: A {C}++ library for the development of parallel simulation codes on regular grids"
    | Journal => "Computer Physics Communications"
    | Year => "2018"
    | Volume => "226"
    | Pages => "151--164"
    | _ => ""
    end)) Url "https://doi.org/10.1016/j.cpc.2017.12.023".
Definition schnek_description : string := "Parallel simulation framework based on the Schnek Library".
Definition new_manager : records := add_reference schnek_description schnek_reference [].

(** [writeInformation] — literature.cpp:151-165. *)
Definition item (x : string * (list string * reference)) : string :=
  "\item " ++ String.concat "" (map (fun d => d ++ newline) (fst (snd x))) ++ "\cite{" ++ fst x ++ "}" ++ newline.
Definition write_information (title subtitle bibfile : string) (rs : records) : string :=
  "\documentclass{article}" ++ newline ++ "\begin{document}" ++ newline ++ "\section*{" ++ title ++ "}" ++ newline ++
  subtitle ++ newline ++ "\begin{itemize}" ++ String.concat "" (map item rs) ++
  "\end{itemize}" ++ newline ++ "\bibliographystyle{acm}" ++ newline ++ "\bibliography{" ++ bibfile ++ "}" ++ newline ++ "\end{document}" ++ newline.
(** [writeBibTex] — literature.cpp:167-173. *)
Definition write_bibtex (rs : records) : string := String.concat "" (map (fun x => print (snd (snd x)) ++ newline) rs).
