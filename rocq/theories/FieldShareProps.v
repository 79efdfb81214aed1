(** Further theorems for C19: fields that share their data, and arbitrary assignments. *)
From Verif Require Import Vec GridSpec StorageModel GridModel ShareModel ShareSpec ShareProofs ShareExamples AssignSpec
  FieldModel FieldSpec FieldShareSpec FieldShareProofs FieldShareExamples.
Open Scope Z_scope.

(** C19 for fields that share their data.  A program may copy, assign and resize fields as it likes, as long as each resize
    finds that the fields it tells are alive and members of the group (see C11).  It runs without undefined behaviour.
    Every field shows the grown range of the request last made of any field it shares with, and what remains of it when its
    own ghost cells are taken away ([fs_shows]). *)
Theorem C19_shared_layout : forall V A (junk : V) (avg0 : A) rank ord pol, policy_ok pol ->
  forall os, fs_legal_run ord (is_lazy pol) os (@fs_init V) ->
  exists s, frun junk avg0 rank ord pol os (finit avg0) = Some (s, fs_obs_run os (@fs_init V)).
Proof. exact @shared_layout. Qed.
Print Assumptions C19_shared_layout.

(** So a field shows the inner range that was last asked for if and only if its own ghost width is the one that was last
    asked for.  This is exactly when the property holds of it. *)
Theorem C19_inner_exactly : forall V A (junk : V) (avg0 : A) rank ord pol, policy_ok pol ->
  forall os h lo hi g lo' hi' g', fs_legal_run ord (is_lazy pol) (os ++ [FLayout h]) (@fs_init V) ->
  fs_last (@fs_end V os) (a_grp (fs_a (@fs_end V os)) h) = Some (lo, hi, g) -> fs_own (@fs_end V os) h = Some (lo', hi', g') ->
  exists s obs ilo ihi,
    frun junk avg0 rank ord pol (os ++ [FLayout h]) (finit avg0) =
      Some (s, obs ++ [(fst (grown (lo, hi, g)), snd (grown (lo, hi, g)), ilo, ihi)]) /\
    (lo <> [] -> ((ilo, ihi) = (lo, hi) <-> g' = g)).
Proof. exact shown_exactly. Qed.
Print Assumptions C19_inner_exactly.

(** Field 1 is resized with another ghost width, which its copy 2 does not take over; field 3 is assigned from the copy; then
    the copy is resized, and it is field 1 that shows the wrong inner range. *)
Example C19_shared_hypotheses :
  (forall ord lazy, fs_legal_run ord lazy ex_shared (@fs_init Z)) /\
  option_map snd (frun 0 tt 1 COrder Instant ex_shared (finit tt)) =
  Some [([-3], [10], [0], [7]); ([-3], [10], [-2], [9]); ([5], [6], [5], [6]); ([-3], [10], [-2], [9]);
        ([0], [10], [3], [7]); ([0], [10], [1], [9]); ([0], [10], [1], [9])] /\
  fs_last (@fs_end Z ex_shared) (a_grp (fs_a (@fs_end Z ex_shared)) 1%nat) = Some ([1], [9], 1) /\
  fs_own (@fs_end Z ex_shared) 1%nat = Some ([0], [7], 3).
Proof. split; [exact ex_shared_legal|]. vm_compute. auto. Qed.
