(** The expressions of the input deck as a user writes them: what may stand where, following
    /repo/parser/deckgrammar.y:44-72, but with chains of operators as lists and not as the
    right-recursive productions of the grammar.  Literals keep their text. *)
From Coq Require Import List Bool String.
Import ListNotations.

Inductive atom :=
| AInt (text : string)
| AFloat (text : string)
| AStr (text : string)
| AId (name : string)
| APar (e : sum)                           (* ( e ) *)
| ACall (name : string) (args : list sum)  (* name(e1, ..., en) *)
with factor :=
| FAtom (a : atom)
| FPow (a : atom) (sign : option bool) (b : atom)   (* a ^ b; Some false: a ^ -b; Some true: a ^ +b *)
with term :=
| Term (f : factor) (rest : list (bool * factor))   (* f * f / f ...; true: *, false: / *)
with sum :=
| Sum (sign : option bool) (t : term) (rest : list (bool * term)).  (* -t + t - t ...; true: + *)

(** Size, for inductions. *)
Fixpoint asize (a : atom) : nat :=
  match a with
  | APar e => S (ssize e)
  | ACall _ args => S (list_sum (map ssize args))
  | _ => 1
  end
with fsize (f : factor) : nat :=
  match f with
  | FAtom a => S (asize a)
  | FPow a _ b => S (asize a + asize b)
  end
with tsize (t : term) : nat :=
  match t with
  | Term f rest => S (fsize f + list_sum (map (fun x => fsize (snd x)) rest))
  end
with ssize (s : sum) : nat :=
  match s with
  | Sum _ t rest => S (tsize t + list_sum (map (fun x => tsize (snd x)) rest))
  end.
