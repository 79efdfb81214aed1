(** What a printed grid looks like.  Nothing here refers to the model. *)
From Coq Require Import String Ascii.
From Verif Require Import Vec GridSpec.
Local Open Scope string_scope.

Definition is_blank (c : ascii) : bool :=
  Ascii.eqb c " " || Ascii.eqb c "009" || Ascii.eqb c "010" || Ascii.eqb c "013".

(** The words of a text: its longest parts without blanks, in order; this is what [>>] reads. *)
Definition keep (w : string) (ws : list string) : list string := if String.eqb w "" then ws else w :: ws.
Fixpoint split (s : string) : string * list string :=
  match s with
  | "" => ("", [])
  | String c s' => let (w, ws) := split s' in if is_blank c then ("", keep w ws) else (String c w, ws)
  end.
Definition words (s : string) : list string := let (w, ws) := split s in keep w ws.
(** [s] is one word. *)
Fixpoint no_blank (s : string) : bool :=
  match s with "" => true | String c s' => negb (is_blank c) && no_blank s' end.
Definition one_word (s : string) : Prop := s <> "" /\ no_blank s = true.

(** The integers from [a] to [b]. *)
Definition from_to (a b : Z) : list Z := map (fun i => a + Z.of_nat i)%Z (seq 0 (Z.to_nat (b - a + 1))).

(** The row of the cells that have the indices [q] in all dimensions but the first. *)
Definition row {V} (show : V -> string) (val : vec -> V) (lo0 hi0 : Z) (q : vec) : string :=
  String.concat " " (map (fun i => show (val (i :: q))) (from_to lo0 hi0)).
(** A plane ends with the row [q]: there is a third dimension and the second index is the last one. *)
Definition ends_plane (hi1 : Z) (q : vec) : bool :=
  match q with j :: _ :: _ => (j =? hi1)%Z | _ => false end.

(** The text of a grid with the cells [lo..hi] that holds [val p] at [p].  Rank 1: one row, without a line
    feed.  Higher ranks: a line for each row, for the indices [qs] in this order; an empty line after each plane. *)
Definition layout {V} (show : V -> string) (val : vec -> V) (lo hi : vec) (qs : list vec) : string :=
  match lo, hi with
  | [l0], [h0] => row show val l0 h0 []
  | l0 :: _, h0 :: h1 :: _ =>
      String.concat "" (map (fun q => row show val l0 h0 q ++ String "010" (if ends_plane h1 q then String "010" "" else "")) qs)
  | _, _ => ""
  end.
