(** How BibTeX reads a file.  Text outside entries is a comment; an entry is
    [@kind{key, name = {value}, ...}] with white space between the parts; the braces in a value are balanced. *)
From Coq Require Import List Bool String Ascii.
From Verif Require Import LitModel LitSpec.
Import ListNotations.
Local Open Scope string_scope.

Record bib_entry := mkEntry { e_kind : string; e_key : string; e_fields : list (string * string) }.

Inductive reading :=
  | Outside
  | InKind (kind : string)
  | InKey (kind key : string)
  | BeforeName (e : bib_entry)                              (** after a comma *)
  | InName (e : bib_entry) (name : string)
  | BeforeValue (e : bib_entry) (name : string)             (** after the sign [=] *)
  | InValue (e : bib_entry) (name : string) (depth : nat) (value : string)
  | AfterValue (e : bib_entry)
  | Wrong.

Definition white (c : ascii) : bool :=
  (Ascii.eqb c " " || Ascii.eqb c "009" || Ascii.eqb c "010" || Ascii.eqb c "013")%bool.
(** Characters that no name contains. *)
Definition no_name (c : ascii) : bool :=
  existsb (Ascii.eqb c) [","; "{"; "}"; "("; ")"; "#"; "%"; "'"; "034"]%char.
Definition snoc (s : string) (c : ascii) : string := s ++ String c "".
Definition with_field (e : bib_entry) (name value : string) : bib_entry :=
  mkEntry (e_kind e) (e_key e) (e_fields e ++ [(name, value)])%list.

(** One character: the entry that it completes, if any. *)
Definition read_char (s : reading) (c : ascii) : reading * list bib_entry :=
  match s with
  | Outside => if Ascii.eqb c "@" then (InKind "", []) else (Outside, [])
  | InKind k => if white c then (InKind k, []) else if Ascii.eqb c "{" then (InKey k "", []) else (InKind (snoc k c), [])
  | InKey k key =>
      if Ascii.eqb c "," then (BeforeName (mkEntry k key []), [])
      else if Ascii.eqb c "}" then (Outside, [mkEntry k key []])
      else if white c then if String.eqb key "" then (InKey k key, []) else (AfterValue (mkEntry k key []), [])
      else (InKey k (snoc key c), [])
  | BeforeName e => if white c then (BeforeName e, []) else if Ascii.eqb c "}" then (Outside, [e]) else (InName e (String c ""), [])
  | InName e n => if white c then (InName e n, []) else if Ascii.eqb c "=" then (BeforeValue e n, []) else if no_name c then (Wrong, []) else (InName e (snoc n c), [])
  | BeforeValue e n => if white c then (BeforeValue e n, []) else if Ascii.eqb c "{" then (InValue e n 0 "", []) else (Wrong, [])
  | InValue e n d v =>
      if Ascii.eqb c "{" then (InValue e n (S d) (snoc v c), [])
      else if Ascii.eqb c "}" then
        match d with O => (AfterValue (with_field e n v), []) | S d' => (InValue e n d' (snoc v c), []) end
      else (InValue e n d (snoc v c), [])
  | AfterValue e =>
      if white c then (AfterValue e, []) else if Ascii.eqb c "," then (BeforeName e, [])
      else if Ascii.eqb c "}" then (Outside, [e]) else (Wrong, [])
  | Wrong => (Wrong, [])
  end.
Fixpoint read_from (s : reading) (text : string) : reading * list bib_entry :=
  match text with
  | "" => (s, [])
  | String c text' => let (s1, l1) := read_char s c in let (s2, l2) := read_from s1 text' in (s2, (l1 ++ l2)%list)
  end.
(** The entries of a file; [None] if it ends within an entry or is malformed. *)
Definition read_bibtex (text : string) : option (list bib_entry) :=
  match read_from Outside text with (Outside, l) => Some l | _ => None end.

(** Balanced braces: the depth never falls below zero, and is zero at the end. *)
Fixpoint balanced_from (depth : nat) (s : string) : Prop :=
  match s with
  | "" => depth = 0
  | String c s' =>
      if Ascii.eqb c "{" then balanced_from (S depth) s'
      else if Ascii.eqb c "}" then match depth with O => False | S d => balanced_from d s' end
      else balanced_from depth s'
  end.
Definition balanced (s : string) : Prop := balanced_from 0 s.
(** A citation key: not empty, no white space, no comma, no closing brace. *)
Fixpoint plain (s : string) : Prop :=
  match s with "" => True | String c s' => white c = false /\ c <> ","%char /\ c <> "}"%char /\ plain s' end.
Definition citation_key (s : string) : Prop := s <> "" /\ plain s.
(** An entry with the kind, the key and the data of a reference. *)
Definition holds (r : reference) (e : bib_entry) : Prop :=
  e_kind e = kind_name (publ r) /\ e_key e = bib_key r /\ NoDup (map fst (e_fields e)) /\
  forall n v, In (n, v) (e_fields e) <-> exists f, n = field_name f /\ get r f = v /\ v <> "".
