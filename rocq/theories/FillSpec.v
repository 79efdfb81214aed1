(** What a filled field holds. *)
From Coq Require Import ZArith List Bool.
From Verif Require Import Vec GridModel FieldModel ExprModel DepModel DepSpec FillModel.
Import ListNotations.

Section Spec.
  Variable A : arith.
  Variable pa : pos_arith (F A).
  Variable exprs : nat -> expr A.
  Variable vars : list nat.
  Variable dummy : nat.
  Variable funs : vec -> fsig -> list (value A) -> result (value A).

  (** The axis [i] of the field: its bounds, ghost cells, staggering and physical domain. *)
  Definition axis (t : fill_target A) (i : nat) : fdim (F A) :=
    mkFD (F A) (vget (g_lo (t_grid t)) i) (vget (g_hi (t_grid t)) i) (t_ghost t) (nth i (t_stag t) false)
      (nth i (t_dlo t) (pa_of_int pa 0)) (nth i (t_dhi t) (pa_of_int pa 0)).
  (** The state [st'] is [st], with the coordinates at the position of the cell [pos]. *)
  Definition located (t : fill_target A) (at_ : nat -> nat) (st : store A) (pos : vec) (st' : store A) : Prop :=
    s_fixed st' = s_fixed st /\ s_id st' = s_id st /\ s_fun st' = funs pos /\
    (forall i, (i < length (g_lo (t_grid t)))%nat -> s_ext st' (at_ i) = VFloat (index_to_position pa (axis t i) (vget pos i))) /\
    (forall x, (forall i, (i < length (g_lo (t_grid t)))%nat -> x <> at_ i) -> s_ext st' x = s_ext st x).
  (** The value the variable [d] has for the coordinates of the cell [pos]. *)
  Definition value_at (t : fill_target A) (at_ : nat -> nat) (st : store A) (pos : vec) (d : nat) (v : value A) : Prop :=
    exists st', located t at_ st pos st' /\ (forall x, x <> dummy -> ~ In x vars -> s_val st' x = s_val st x) /\
      up_to_date exprs vars st' d /\ s_val st' d = v.
  (** Every variable that reads a coordinate is registered as independent. *)
  Definition coords_registered (t : fill_target A) (at_ : nat -> nat) (ind : list nat) : Prop :=
    forall v i, In v vars -> (i < length (g_lo (t_grid t)))%nat -> In (at_ i) (ext_refs (exprs v)) -> In v ind.
  (** Functions not registered as always changing do not change. *)
  Definition steady (st : store A) : Prop := forall pos f, fs_always f = false -> funs pos f = s_fun st f.
End Spec.
Arguments coords_registered {A} exprs vars t at_ ind.
Arguments steady {A} funs st.
