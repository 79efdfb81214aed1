(** Model of [DomainSubdivision::getInnerExtent] in any arithmetic. *)
From Coq Require Import ZArith.
From Verif Require Import FieldModel.
Local Open Scope Z_scope.

(** One dimension — domainsubdivision.hpp:135-148.  [glo], [ghi]: the global domain as returned by [getGlobalDomain]; [elo],
    [ehi]: the global extent.  The type of the extent is left open, with its operations and the conversion from [int]. *)
Section Extent.
  Context {T : Type}.
  Variable a : pos_arith T.
  Variables (glo ghi : Z) (elo ehi : T).

  (** [dx] — domainsubdivision.hpp:143. *)
  Definition ext_dx : T := pa_div a (pa_sub a ehi elo) (pa_of_int a (ghi - glo + 1)).
  (** [localDomainMin[i]], [localDomainMax[i]] — domainsubdivision.hpp:144, 145. *)
  Definition ext_min (inner_lo : Z) : T := pa_add a elo (pa_mul a (pa_of_int a inner_lo) ext_dx).
  Definition ext_max (inner_hi : Z) : T := pa_add a elo (pa_mul a (pa_of_int a (inner_hi + 1)) ext_dx).
End Extent.
