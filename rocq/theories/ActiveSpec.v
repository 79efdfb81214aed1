(** What users expect of streams that are not active in all processes. *)
From Coq Require Import List Arith Bool.
Import ListNotations.
From Verif Require Import ActiveModel.

Section Spec.
  Variable k : kind.
  Variable n : nat.

  (** All processes call [setActive]. *)
  Definition everyone (f : nat -> option bool) : Prop := forall p, p < n -> f p <> None.
  (** The processes that are active after the calls [l]. *)
  Definition chosen (f : nat -> option bool) (p : nat) (b : bool) : bool := match f p with Some b' => b' | None => b end.
  Fixpoint activity (l : list call) (a : nat -> bool) : nat -> bool :=
    match l with
    | [] => a
    | Choose f :: l' => activity l' (fun p => chosen f p (a p))
    | _ :: l' => activity l' a
    end.
  Definition everywhere : nat -> bool := fun _ => true.
  Definition those (a : nat -> bool) : list nat := filter a (seq 0 n).

  (** What is expected: the active processes, and no others, open the file together; they write or read; attributes are written if
      process 0 is among those that write. *)
  Definition together (a : nat -> bool) : seen := Opened (map (fun p => (p, those a)) (those a)).
  Fixpoint expected (l : list call) (a : nat -> bool) : list seen :=
    match l with
    | [] => []
    | Choose f :: l' => expected l' (fun p => chosen f p (a p))
    | OpenAll :: l' => together a :: expected l' a
    | TransferAll :: l' => Moved (those a) (match k with Writer => existsb (Nat.eqb 0) (those a) | Reader => false end) :: expected l' a
    end.

  (** Programs that use streams as intended: all processes call [setActive] or none does, and a file is open when it is written or
      read, opened by the processes that are active then; all are active when it is read.  [o]: the processes that have opened the file. *)
  Fixpoint orderly (l : list call) (a : nat -> bool) (o : option (list nat)) : Prop :=
    match l with
    | [] => True
    | Choose f :: l' => everyone f /\ orderly l' (fun p => chosen f p (a p)) o
    | OpenAll :: l' => orderly l' a (Some (those a))
    | TransferAll :: l' =>
        match k with
        | Writer => those a = [] \/ o = Some (those a)
        | Reader => those a = seq 0 n /\ o = Some (those a)
        end /\ orderly l' a o
    end.
  (** Each time the file is opened by the processes in [s], or by none. *)
  Fixpoint steady (s : list nat) (l : list call) (a : nat -> bool) : Prop :=
    match l with
    | [] => True
    | Choose f :: l' => steady s l' (fun p => chosen f p (a p))
    | OpenAll :: l' => (those a = s \/ those a = []) /\ steady s l' a
    | TransferAll :: l' => steady s l' a
    end.
  (** Each time before the file is opened, all call [setActive] ([c]: they have).  If [w], openings without such a call are allowed
      too, as long as all processes or none take part in the first of them ([d]: there has been one). *)
  Fixpoint announced (w : bool) (l : list call) (c d : bool) (a : nat -> bool) : Prop :=
    match l with
    | [] => True
    | Choose f :: l' => announced w l' true d (fun p => chosen f p (a p))
    | OpenAll :: l' =>
        (c = true \/ w = true /\ (d = true \/ those a = seq 0 n \/ those a = [])) /\
        announced w l' false (if c then d else true) a
    | TransferAll :: l' => announced w l' c d a
    end.
End Spec.
