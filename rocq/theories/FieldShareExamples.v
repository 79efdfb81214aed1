(** The example of fields that share their data is legal under either allocation policy. *)
From Verif Require Import Vec GridSpec StorageModel GridModel ShareModel ShareSpec ShareProofs AssignSpec AssignExamples
  FieldModel FieldSpec FieldShareSpec FieldShareProofs ShareExamples.
Open Scope Z_scope.

Lemma ex_shared_legal ord lazy : fs_legal_run ord lazy ex_shared (@fs_init Z).
Proof.
  unfold ex_shared. cbn [fs_legal_run fs_legal].
  repeat match goal with
  | |- True => exact I
  | |- and _ _ => split
  | |- fs_legal _ _ _ _ => split; [unfold grid_ops, sets, size_request; cbn [grown fst snd map]|]
  | |- _ <> None => vm_compute; congruence
  | |- orderly _ _ _ _ _ => repeat orderly_step
  | |- match _ with FDefault _ => _ | _ => _ end => cbn
  end.
Qed.
