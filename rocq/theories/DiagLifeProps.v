(** Property theorems C94: the manager and the lifetime of diagnostics. *)
From Coq Require Import List Bool Arith.
From Verif Require Import DiagLifeModel DiagLifeProofs.
Import ListNotations.

(** C94.  After any sequence of operations without undefined behaviour: if no constructed diagnostic was destroyed, [execute]
    calls each of them once, in the order of construction, and no copies.  Missing from the full property: destroyed
    diagnostics. *)
Theorem C94_calls_partial : forall os st cs, drun dstart os = Some (st, cs) ->
  (forall j, In j (constructed 0 os) -> ~ In (Destroy j) os) -> dstep st Execute = Some (st, constructed 0 os).
Proof. exact (fun os st cs E => proj2 (execute_calls os st cs E)). Qed.
Print Assumptions C94_calls_partial.
(** All calls of a program without undefined behaviour, in their order. *)
Theorem C94_history : forall os st cs, drun dstart os = Some (st, cs) -> cs = called [] os.
Proof. exact history_calls. Qed.
Print Assumptions C94_history.
Example C94_history_case : exists st, drun dstart [Construct; Execute; Construct; Copy 0; Execute] = Some (st, [0; 0; 1]).
Proof. eexists. reflexivity. Qed.
(** Diagnostics stay registered when they are destroyed: afterwards [execute] is always undefined. *)
Theorem C94_destroyed_refuted : forall os st cs, drun dstart os = Some (st, cs) ->
  (exists j, In j (constructed 0 os) /\ In (Destroy j) os) -> dstep st Execute = None.
Proof. exact (fun os st cs E => proj1 (execute_calls os st cs E)). Qed.
Print Assumptions C94_destroyed_refuted.
Example C94_case : exists st cs, drun dstart [Construct; Copy 0; Construct; Destroy 1; Execute] = Some (st, cs) /\ cs = [0; 2] /\
  constructed 0 [Construct; Copy 0; Construct; Destroy 1; Execute] = [0; 2] /\ drun dstart [Construct; Construct; Destroy 0; Execute] = None.
Proof. exact ex_life. Qed.
