(** Concrete field programs and wrapper lemmas for FieldProps. *)
From Coq Require Import QArith Floats.SpecFloat.
From Verif Require Import Vec GridSpec RangeModel RangeProofs StorageModel GridModel ShareModel ShareSpec ShareProofs
  ShareExamples FieldModel FieldSpec FieldProofs.
Open Scope Z_scope.

Lemma field_layout_all V A (junk : V) (avg0 : A) rank ord pol : policy_ok pol ->
  forall os, flegal_run ord (resize_alone (is_lazy pol)) os (@ainit V) (fun _ => None) ->
  exists s, frun junk avg0 rank ord pol os (finit avg0) = Some (s, fobs_run os (fun _ => None)).
Proof.
  intros Hp os Hl. eapply (field_layout junk avg0 rank ord pol Hp os); [|exact Hl]. apply FI_init.
Qed.

Lemma grown_contains lo hi g p : 0 <= g -> in_box lo hi p -> in_box (fst (grown (lo, hi, g))) (snd (grown (lo, hi, g))) p.
Proof.
  intros Hg Hp. unfold grown. cbn [fst snd]. revert hi p Hp. induction lo as [|l lo IH]; intros [|h hi] [|x p]; simpl; auto.
  intros [H1 H2]. split; [lia|auto].
Qed.

(** a field with 10x4 cells and 2 ghost cells, a copy, a second field from bounds, assignment,
    resizing *)
Definition ex_field : list fop :=
  [FNewSize 1 [10; 4] 2; FLayout 1; FCopy 2 1; FLayout 2; FNewRange 3 [-5; 3] [5; 3] 1; FLayout 3;
   FResizeSize 3 [6; 6] 0; FLayout 3; FDestroy 1; FResizeRange 2 [2; 2] [3; 9] 3; FLayout 2;
   FDefault 4; FAssign 4 2; FLayout 4].

Lemma shape_ok_2 ord l0 h0 l1 h1 : -1000 <= l0 <= h0 -> h0 < 1000 -> -1000 <= l1 <= h1 -> h1 < 1000 ->
  shape_ok ord [l0; l1] [h0; h1].
Proof.
  intros A1 A2 A3 A4. split; [discriminate|]. split; [simpl; lia|]. split; [simpl; nia|].
  intros _. unfold c_fast, dims_of. cbn [vmap2 combine fold_left fst snd].
  assert (S : forall x, -2000000000 <= x <= 2000000000 -> s64 x = Some x).
  { intros x Hx. unfold s64. destruct (Z.leb_spec (- 2 ^ 63) x); [|lia]. destruct (Z.ltb_spec x (2 ^ 63)); [|lia]. reflexivity. }
  rewrite S by lia. rewrite S by nia. rewrite S by nia. discriminate.
Qed.

Lemma ex_field_ok : flegal_run COrder (resize_alone false) ex_field (@ainit Z) (fun _ => None) /\
  option_map snd (frun 0 tt 2 COrder Instant ex_field (finit tt)) =
  Some [ ([-2; -2], [11; 5], [0; 0], [9; 3]);
         ([-2; -2], [11; 5], [0; 0], [9; 3]);
         ([-6; 2], [6; 4], [-5; 3], [5; 3]);
         ([0; 0], [5; 5], [0; 0], [5; 5]);
         ([-1; -1], [6; 12], [2; 2], [3; 9]);
         ([-1; -1], [6; 12], [2; 2], [3; 9]) ].
Proof.
  split; [|vm_compute; reflexivity].
  unfold ex_field. cbn [flegal_run].
  repeat match goal with
  | |- True => exact I
  | |- flegal _ _ _ _ => unfold flegal
  | |- resize_alone _ _ _ => unfold resize_alone
  | |- request_ok _ _ => unfold request_ok, size_request; cbn [map]
  | |- shape_ok _ _ _ => cbn [grown fst snd map]; apply shape_ok_2; lia
  | |- box_ok _ _ => simpl; lia
  | |- length _ = length _ => reflexivity
  | |- 0 <= _ => lia
  | |- and _ _ => apply conj
  | |- ~ In _ _ => vm_compute; intuition congruence
  | |- In _ _ => vm_compute; tauto
  | |- _ <> None => vm_compute; congruence
  | |- alone _ _ => intros y Hy; vm_compute in Hy; repeat (destruct Hy as [<-|Hy]; [vm_compute; congruence|]); destruct Hy
  end.
  unfold assign_safe. right. split; [|discriminate]. intros y Hy; vm_compute in Hy; repeat (destruct Hy as [<-|Hy]; [vm_compute; congruence|]); destruct Hy.
Qed.

Lemma field_copy_resize :
  flegal_run COrder (fun _ _ => True) [FNewSize 1 [4] 1; FCopy 2 1; FResizeSize 1 [8] 3; FLayout 1; FLayout 2]
    (@ainit Z) (fun _ => None) /\
  option_map snd (frun 0 tt 1 COrder Instant
    [FNewSize 1 [4] 1; FCopy 2 1; FResizeSize 1 [8] 3; FLayout 1; FLayout 2] (finit tt)) =
  Some [([-3], [10], [0], [7]); ([-3], [10], [-2], [9])].
Proof.
  split; [|vm_compute; reflexivity]. cbn [flegal_run].
  repeat match goal with
  | |- True => exact I
  | |- flegal _ _ _ _ => unfold flegal
  | |- request_ok _ _ => unfold request_ok, size_request; cbn [map]
  | |- shape_ok _ _ _ => cbn [grown fst snd map]; apply shape_ok_1; lia
  | |- box_ok _ _ => simpl; lia
  | |- length _ = length _ => reflexivity
  | |- 0 <= _ => lia
  | |- and _ _ => apply conj
  | |- ~ In _ _ => vm_compute; intuition congruence
  | |- In _ _ => vm_compute; tauto
  | |- _ <> None => vm_compute; congruence
  end.
Qed.

Lemma b64_round_trip_fails :
  let f := mkFD spec_float 0 48 0 false (sf_of_Z 0) (sf_of_Z 1) in
  option_map fst (position_to_index b64_arith f (index_to_position b64_arith f 1)) = Some 0.
Proof. vm_compute. reflexivity. Qed.
