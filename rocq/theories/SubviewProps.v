(** C108: views of grids that change.  The vocabulary is in [SubviewSpec] and [ShareSpec]. *)
From Verif Require Import Vec GridSpec StorageModel GridModel ShareModel ShareSpec ShareProofs ShareExamples BoundaryModel SubviewModel SubviewSpec SubviewExamples.

(** C108.  Programs that make, copy, assign, resize and destroy views, and construct, copy, assign, resize, destroy,
    read and write grids, in any order and with any checking policies: an element that is read through a view is
    the one its base grid has at that index at that time, writing through a view writes to the base grid and to all that share
    its data, and operations on grids change no view. *)
Theorem C108_views_follow : forall V A (junk : V) (avg0 : A) rank ord pol cv cb, policy_ok pol ->
  forall os, legal_run rank ord (is_lazy pol) (cv = CkAssert) os nothing ->
  exists s obs, vrun junk avg0 rank ord pol cv cb os (vinit avg0) = Some (s, obs) /\ observed_run rank os nothing obs.
Proof. exact views_follow. Qed.
Print Assumptions C108_views_follow.

(** A view does not keep its base grid alive: after the base grid is destroyed, or if there never was one, any access
    through the view is undefined, even when the data lives on in copies of the grid. *)
Theorem C108_base_gone : forall V A (junk : V) (avg0 : A) rank ord pol cv cb, policy_ok pol ->
  forall os, legal_run rank ord (is_lazy pol) (cv = CkAssert) os nothing ->
  forall w b lo hi, in_views (effects rank os nothing) w = Some (b, lo, hi) ->
  (forall h, b = Some h -> ~ In h (a_live (in_grids (effects rank os nothing)))) ->
  forall p v, vrun junk avg0 rank ord pol cv cb (os ++ [ReadView w p]) (vinit avg0) = None /\
              vrun junk avg0 rank ord pol cv cb (os ++ [WriteView w p v]) (vinit avg0) = None.
Proof. exact views_dangle. Qed.
Print Assumptions C108_base_gone.

Example C108_hypotheses :
  legal_run 1 COrder false (CkAssert = CkAssert) view_prog nothing /\
  option_map snd (vrun 0 tt 1 COrder Instant CkAssert CkAssert view_prog (vinit tt)) =
    Some [OVal 42; OVal 9; OVal 8; OVal 6; OBounds [2] [5]; OBounds [10] [12]] /\
  in_views (effects 1 view_prog nothing) 8 = Some (Some 1%nat, [10], [12]) /\
  a_live (in_grids (effects 1 view_prog nothing)) = [2%nat].
Proof. exact (conj view_prog_legal (conj view_prog_run (conj (proj1 view_prog_dangling) (proj1 (proj2 view_prog_dangling))))). Qed.
