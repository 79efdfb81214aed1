(** Concrete programs that make, copy, initialise and destroy MPI subdivisions. *)
From Coq Require Import List Arith Bool Lia.
Import ListNotations.
From Verif Require Import OwnModel OwnSpec OwnProofs.

Ltac ownrun := repeat (split; [simpl; repeat split; auto; try lia; try (intros H; repeat destruct H as [H|H]; try discriminate; tauto)|]); try exact I; try reflexivity.

(** Two subdivisions, one a copy made before either was initialised, one initialised twice, both used and destroyed. *)
Definition busy : list oop :=
  [Construct 1; CopyOf 2 1; Init 1; Init 2; Exchange 1 0; Exchange 2 1; Init 1; Exchange 1 1; Destruct 1; Exchange 2 0; Destruct 2].
Lemma busy_cautious : cautious_run 2 busy nobody.
Proof. cbn [cautious_run busy]. ownrun. Qed.
Definition tidy : list oop :=
  [Construct 1; CopyOf 2 1; Init 1; Init 2; Exchange 1 0; Destruct 1; Exchange 2 0; Destruct 2].
Lemma tidy_cautious : cautious_run 2 tidy nobody.
Proof. cbn [cautious_run tidy]. ownrun. Qed.

(** A copy of an initialised subdivision; a second initialisation. *)
Definition doubled : list oop := [Construct 1; Init 1; CopyOf 2 1; Destruct 1; Destruct 2].
Definition again : list oop := [Construct 1; Init 1; Init 1; Destruct 1].

Lemma doubled_permitted : permitted_run 2 doubled nobody.
Proof. cbn [permitted_run doubled]. ownrun. Qed.
Lemma again_permitted : permitted_run 2 again nobody.
Proof. cbn [permitted_run again]. ownrun. Qed.

Lemma not_safe : ~ (forall ps, permitted_run 2 ps nobody -> exists s, orun 2 ps (oinit 2) = Some s).
Proof.
  intros H. destruct (H doubled doubled_permitted) as (s & E). vm_compute in E. discriminate.
Qed.
Lemma not_balanced : ~ (forall ps s, permitted_run 2 ps nobody -> w_live (end_world ps nobody) = [] ->
  orun 2 ps (oinit 2) = Some s -> o_heap s = []).
Proof.
  intros H. assert (E : exists s, orun 2 again (oinit 2) = Some s /\ length (o_heap s) = 5).
  { eexists. split; [vm_compute; reflexivity|reflexivity]. }
  destruct E as (s & E & L). rewrite (H again s again_permitted eq_refl E) in L. discriminate.
Qed.

Lemma own_hypotheses :
  (cautious_run 2 busy nobody /\ losses busy nobody = 1) /\
  (cautious_run 2 tidy nobody /\ losses tidy nobody = 0 /\ w_live (end_world tidy nobody) = []) /\
  (let ps := [Construct 1; Construct 2; Init 1; Init 2] in
   cautious_run 2 ps nobody /\ In 1 (w_ready (end_world ps nobody)) /\ In 2 (w_live (end_world ps nobody)) /\ ~ In 3 (w_live (end_world ps nobody))).
Proof.
  split; [split; [exact busy_cautious|reflexivity]|]. split; [split; [exact tidy_cautious|split; reflexivity]|].
  cbv zeta. split; [cbn [cautious_run]; ownrun|]. simpl. repeat split; auto. lia.
Qed.

Lemma ex_misuse : cautious_run 2 busy nobody /\ ~ permitted 2 (Exchange 1 2) (end_world busy nobody) /\
  ~ permitted 2 (Destruct 9) (end_world busy nobody).
Proof.
  split; [exact busy_cautious|]. split.
  - intros [_ H]. exact (Nat.lt_irrefl _ H).
  - intros H. cbn in H. repeat (destruct H as [H|H]; [discriminate H|]). exact H.
Qed.
