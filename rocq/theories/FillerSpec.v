(** What [FieldFiller] should do: every filler keeps the fields registered with it, with their coordinates
    and updater. *)
From Coq Require Import List Bool Arith.
From Verif Require Import FillerModel.
Import ListNotations.

(** The fields of the filler [f] after a program, the last operation first. *)
Fixpoint registered (past : list fop) (f : nat) : list impl :=
  match past with
  | [] => []
  | FSet g _ coords updater fields :: past' =>
      registered past' f ++ if Nat.eqb g f then map (fun x => mkImpl (fst x) (snd x) coords updater) fields else []
  | FClear g :: past' => if Nat.eqb g f then [] else registered past' f
  | (FNew _ | FDestroy _ | FFill _) :: past' => registered past' f
  end.
Fixpoint exists_now (past : list fop) (f : nat) : bool :=
  match past with
  | [] => false
  | FNew g :: past' => Nat.eqb g f || exists_now past' f
  | FDestroy g :: past' => negb (Nat.eqb g f) && exists_now past' f
  | _ :: past' => exists_now past' f
  end.
(** Only fillers that exist are used, and no filler is made twice. *)
Definition used (o : fop) : option nat := match o with FNew _ => None | FDestroy f | FSet f _ _ _ _ | FClear f | FFill f => Some f end.
Fixpoint proper (past os : list fop) : Prop :=
  match os with
  | [] => True
  | o :: os' =>
      match o with
      | FNew f => ~ In (FNew f) past
      | FDestroy f | FSet f _ _ _ _ | FClear f | FFill f => exists_now past f = true
      end /\ proper (o :: past) os'
  end.
(** The calls of [fill()] expected of a program, for each [fillFields()]. *)
Fixpoint filled (past os : list fop) : list (list impl) :=
  match os with
  | [] => []
  | o :: os' => match o with FFill f => [registered past f] | _ => [] end ++ filled (o :: past) os'
  end.
(** All calls of [set] of one instantiation agree. *)
Definition one_set (os : list fop) : Prop :=
  forall f k c u l f' c' u' l', In (FSet f k c u l) os -> In (FSet f' k c' u' l') os -> f = f' /\ c = c' /\ u = u'.
