(** Values after the exchange of all dimensions, on all processes. *)
From Verif Require Import Vec GridSpec RangeModel BoxFacts RangeProofs GridModel GridOpSpec GridProofs BoundaryModel BoundarySpec
  BoundaryProofs SerialProofs SubGridProofs NetModel NetProofs MpiModel MpiSpec MpiProofs MpiComm.
Local Open Scope Z_scope.
Local Arguments Z.mul : simpl never.
Local Arguments Z.add : simpl never.
Local Arguments Z.sub : simpl never.
Local Arguments Z.of_nat : simpl never.

Lemma nth_flat_map_const {A B} (f : A -> list B) w l a0 b0 : (forall x, length (f x) = w) ->
  forall k j, (k < length l)%nat -> (j < w)%nat -> nth (k * w + j) (flat_map f l) b0 = nth j (f (nth k l a0)) b0.
Proof.
  intros Hw. induction l as [|x l IH]; intros k j Hk Hj; simpl in Hk; [lia|]. cbn [flat_map].
  destruct k as [|k].
  - cbn [Nat.mul Nat.add nth]. rewrite app_nth1 by (rewrite Hw; lia). reflexivity.
  - rewrite app_nth2 by (rewrite Hw; simpl; lia). rewrite Hw.
    replace (S k * w + j - w)%nat with (k * w + j)%nat by (simpl; lia). cbn [nth]. apply IH; lia.
Qed.

Lemma the_call_all f w rank k j : (forall d, length (f d) = w) -> (k < rank)%nat -> (j < w)%nat ->
  the_call (all_dims f rank) (k * w + j) = nth j (f k) (mkCall 0 true (Ghost Min) (Ghost Min) false).
Proof.
  intros Hw Hk Hj. unfold the_call, all_dims. rewrite (nth_flat_map_const f w _ 0%nat); [|exact Hw|rewrite seq_length; exact Hk|exact Hj].
  rewrite seq_nth by exact Hk. reflexivity.
Qed.

Lemma all_dims_length f w rank : (forall d, length (f d) = w) -> length (all_dims f rank) = (rank * w)%nat.
Proof. intros Hw. unfold all_dims. rewrite (flat_map_const_length f w) by exact Hw. rewrite seq_length. reflexivity. Qed.

Section Values.
  Context {V : Type}.
  Variable plus : V -> V -> V.
  Variable cut : Z -> Z -> Z -> Z.
  Variables (dims high : vec) (delta : Z).
  Let bd := mpi_bounds cut dims high delta.
  Hypothesis Hdims : process_grid dims.
  Hypothesis Hlen : length high = length dims.
  Hypothesis Hcuts : forall i, (i < length dims)%nat -> cut_ok cut (vget high i) (vget dims i).
  Hypothesis Hdelta : 1 <= delta.
  Hypothesis Hwide : forall c i, is_process dims c -> (i < length dims)%nat ->
    delta <= iHi cut dims high delta c i - iLo cut dims high delta c i + 1.

  Notation iLo := (iLo cut dims high delta).
  Notation iHi := (iHi cut dims high delta).
  Notation ra := (ra cut dims high delta).
  Notation rslab := (rslab cut dims high delta).
  Notation upd_call := (upd_call plus cut dims high delta).
  Notation prev c d := (cart_shift dims c d (-1)).
  Notation next c d := (cart_shift dims c d 1).

  Definition off_lo (c : vec) (d : nat) : Z := if 0 <? vget c d then 0 else vget high d + 1.
  Definition off_hi (c : vec) (d : nat) : Z := if vget c d <? vget dims d - 1 then 0 else vget high d + 1.

  Lemma prev_hi c d : is_process dims c -> (d < length dims)%nat -> iHi (prev c d) d + 1 = iLo c d + off_lo c d.
  Proof.
    intros [L H] Hd. unfold MpiProofs.iHi, MpiProofs.iLo, off_lo, cart_shift. rewrite vget_vset_same by lia.
    replace (vget c d + -1) with (vget c d - 1) by lia. apply prev_match; auto.
  Qed.
  Lemma next_lo c d : is_process dims c -> (d < length dims)%nat -> iLo (next c d) d + off_hi c d = iHi c d + 1.
  Proof.
    intros [L H] Hd. unfold MpiProofs.iHi, MpiProofs.iLo, off_hi, cart_shift. rewrite vget_vset_same by lia.
    apply next_match; auto.
  Qed.
  Lemma i_other c d k i : d <> i -> iLo (cart_shift dims c d k) i = iLo c i /\ iHi (cart_shift dims c d k) i = iHi c i.
  Proof. intros N. unfold MpiProofs.iLo, MpiProofs.iHi. rewrite shift_other by exact N. auto. Qed.

  Lemma rslab_iff c d r p : (d < length dims)%nat -> rslab c d r p <->
    length p = length dims /\ ra c d r <= vget p d <= ra c d r + delta - 1 /\
    forall i, (i < length dims)%nat -> i <> d -> iLo c i - delta <= vget p i <= iHi c i + delta.
  Proof.
    intros Hd. unfold MpiComm.rslab, slab. rewrite bd_lo_length. split; intros (A & B & C); (split; [exact A|split; [exact B|]]);
      intros i Hi Ne; specialize (C i Hi Ne).
    - rewrite lo_get, hi_get in C by assumption. exact C.
    - rewrite lo_get, hi_get by assumption. exact C.
  Qed.

  Lemma local_iff c p : in_local (bd c) p <->
    length p = length dims /\ forall i, (i < length dims)%nat -> iLo c i - delta <= vget p i <= iHi c i + delta.
  Proof. apply in_local_iff. Qed.

  Lemma local_comp c d p : (d < length dims)%nat -> in_local (bd c) p <->
    length p = length dims /\ iLo c d - delta <= vget p d <= iHi c d + delta /\
    forall i, (i < length dims)%nat -> i <> d -> iLo c i - delta <= vget p i <= iHi c i + delta.
  Proof.
    intros Hd. rewrite local_iff. split.
    - intros [L H]. split; [exact L|]. split; [apply H, Hd|]. auto.
    - intros (L & H1 & H2). split; [exact L|]. intros i Hi. destruct (Nat.eq_dec i d) as [->|N]; auto.
  Qed.

  Lemma local_neighbour c d k p x : is_process dims c -> (d < length dims)%nat -> in_local (bd c) p ->
    iLo (cart_shift dims c d k) d - delta <= vget p d + x <= iHi (cart_shift dims c d k) d + delta ->
    in_local (bd (cart_shift dims c d k)) (shift_d d x p).
  Proof.
    intros Hc Hd H Hx. apply (local_comp c d) in H; [|exact Hd]. destruct H as (L & _ & H).
    apply (local_comp _ d); [exact Hd|]. rewrite shift_d_length, shift_d_same by lia. split; [exact L|]. split; [exact Hx|].
    intros i Hi Ne. rewrite shift_d_other by congruence. destruct (i_other c d k i) as [-> ->]; [congruence|]. auto.
  Qed.

  (** ** Exchange *)
  Definition xlo (d : nat) : call := mkCall d true (Source Max) (Ghost Min) false.
  Definition xhi (d : nat) : call := mkCall d false (Source Min) (Ghost Max) false.

  Lemma offset_xlo c d : is_process dims c -> (d < length dims)%nat -> offset cut dims high delta (xlo d) c = off_lo c d.
  Proof.
    intros Hc Hd. unfold offset, sender, xlo. cbn [cl_dim cl_up cl_from cl_to MpiComm.ra].
    pose proof (prev_hi c d Hc Hd). lia.
  Qed.
  Lemma offset_xhi c d : is_process dims c -> (d < length dims)%nat -> offset cut dims high delta (xhi d) c = - off_hi c d.
  Proof.
    intros Hc Hd. unfold offset, sender, xhi. cbn [cl_dim cl_up cl_from cl_to MpiComm.ra].
    pose proof (next_lo c d Hc Hd). lia.
  Qed.

  Lemma exchange_dim_values m c d p : is_process dims c -> (d < length dims)%nat -> in_local (bd c) p ->
    upd_call (xhi d) (upd_call (xlo d) m) c p =
      if vget p d <? iLo c d then m (prev c d) (shift_d d (off_lo c d) p)
      else if iHi c d <? vget p d then m (next c d) (shift_d d (- off_hi c d) p)
      else m c p.
  Proof.
    intros Hc Hd Hp. pose proof (Hwide c d Hc Hd) as W.
    pose proof Hp as Hl. apply (local_comp c d) in Hl; [|exact Hd]. destruct Hl as (L & Hx & Ho).
    destruct (Z.ltb_spec (vget p d) (iLo c d)) as [A|A].
    - rewrite upd_out; [|exact Hd|]. 2: { cbn [cl_dim cl_to xhi]. rewrite rslab_iff by exact Hd. cbn [MpiComm.ra]. intros (_ & K & _). lia. }
      rewrite upd_in; [|exact Hd|]. 2: { cbn [cl_dim cl_to xlo]. apply rslab_iff; [exact Hd|]. cbn [MpiComm.ra]. split; [exact L|]. split; [lia|exact Ho]. }
      rewrite offset_xlo by assumption. reflexivity.
    - destruct (Z.ltb_spec (iHi c d) (vget p d)) as [B|B].
      + rewrite upd_in; [|exact Hd|]. 2: { cbn [cl_dim cl_to xhi]. apply rslab_iff; [exact Hd|]. cbn [MpiComm.ra]. split; [exact L|]. split; [lia|exact Ho]. }
        rewrite offset_xhi by assumption. cbn [cl_add xhi cl_dim]. cbn zeta.
        change (sender dims (xhi d) c) with (next c d).
        apply upd_out; [exact Hd|]. cbn [cl_dim cl_to xlo]. rewrite rslab_iff by exact Hd. cbn [MpiComm.ra]. intros (_ & K & _).
        rewrite shift_d_same in K by lia. pose proof (next_lo c d Hc Hd). lia.
      + rewrite upd_out; [|exact Hd|]. 2: { cbn [cl_dim cl_to xhi]. rewrite rslab_iff by exact Hd. cbn [MpiComm.ra]. intros (_ & K & _). lia. }
        apply upd_out; [exact Hd|]. cbn [cl_dim cl_to xlo]. rewrite rslab_iff by exact Hd. cbn [MpiComm.ra]. intros (_ & K & _). lia.
  Qed.

  (** Outside the local domain nothing changes. *)
  Lemma upd_outside cl m c p : is_process dims c -> (cl_dim cl < length dims)%nat -> ~ in_local (bd c) p -> upd_call cl m c p = m c p.
  Proof.
    intros Hc Hd H. apply upd_out; [exact Hd|]. intros K. apply H. eapply rslab_local; eauto.
  Qed.

  Lemma wrap_shift p d x : length p = length dims -> (d < length dims)%nat -> 0 <= vget high d ->
    (x = 0 \/ x = vget high d + 1 \/ x = - (vget high d + 1)) -> wrap high (shift_d d x p) = wrap high p.
  Proof.
    intros L Hd Hh Hx. unfold wrap. apply map_ext_in. intros i Hi. apply in_seq in Hi.
    destruct (Nat.eq_dec d i) as [<-|N].
    - rewrite shift_d_same by lia. destruct Hx as [->|[->| ->]].
      + f_equal. lia.
      + rewrite Z.add_mod, Z.mod_same, Z.add_0_r, Z.mod_mod by lia. reflexivity.
      + replace (vget p d + - (vget high d + 1)) with (vget p d + (-1) * (vget high d + 1)) by lia. apply Z.mod_add. lia.
    - rewrite shift_d_other by exact N. reflexivity.
  Qed.

  Lemma high_nonneg d : (d < length dims)%nat -> 0 <= vget high d.
  Proof.
    intros Hd. assert (P0 : is_process dims (map (fun _ => 0) dims)).
    { split; [apply map_length|]. intros i Hi. rewrite vget_map by exact Hi. specialize (Hdims i Hi). lia. }
    pose proof (Hwide _ d P0 Hd) as W. pose proof (inner_in_global cut delta _ _ (Hcuts d Hd) (vget (map (fun _ => 0) dims) d)
      (iLo (map (fun _ => 0) dims) d)) as K. unfold MpiProofs.iLo, MpiProofs.iHi in *.
    destruct P0 as [_ P0]. specialize (K (P0 d Hd) ltac:(lia)). lia.
  Qed.

  Variable G : vec -> V.

  Definition xprog : list call := all_dims exchange_calls (length dims).

  Lemma xcall_lo d : (d < length dims)%nat -> the_call xprog (d * 2) = xlo d.
  Proof. intros Hd. replace (d * 2)%nat with (d * 2 + 0)%nat by lia. apply (the_call_all exchange_calls 2); [reflexivity|exact Hd|lia]. Qed.
  Lemma xcall_hi d : (d < length dims)%nat -> the_call xprog (S (d * 2)) = xhi d.
  Proof. intros Hd. replace (S (d * 2))%nat with (d * 2 + 1)%nat by lia. apply (the_call_all exchange_calls 2); [reflexivity|exact Hd|lia]. Qed.

  Notation lval := (lval plus cut dims high delta xprog).

  Lemma exchange_values m0 : (forall c p, is_process dims c -> in_inner (bd c) p -> m0 c p = G p) ->
    forall d, (d <= length dims)%nat -> forall c p, is_process dims c -> in_local (bd c) p ->
    (forall i, (d <= i < length dims)%nat -> iLo c i <= vget p i <= iHi c i) ->
    lval m0 (d * 2) c p = G (wrap high p).
  Proof.
    intros H0. induction d as [|d IH]; intros Hd c p Hc Hp Hi.
    - cbn [MpiComm.lval Nat.mul]. assert (Hin : in_inner (bd c) p).
      { apply in_inner_iff. apply local_iff in Hp. split; [apply Hp|]. intros i Hii. apply Hi. lia. }
      rewrite (H0 c p Hc Hin). f_equal.
      pose proof (tiling_inside cut dims high delta Hlen Hcuts p c Hc Hin) as [L K].
      apply vec_ext; [unfold wrap; rewrite map_length, seq_length; exact L|]. intros i Hii. rewrite L in Hii.
      unfold wrap. rewrite (vget_map_seq (fun i => vget p i mod (vget high i + 1))) by exact Hii. symmetry. apply Z.mod_small.
      specialize (K i Hii). lia.
    - cbn [Nat.mul]. cbn [Nat.add MpiComm.lval]. rewrite xcall_lo, xcall_hi by lia.
      rewrite exchange_dim_values by (try lia; assumption).
      pose proof (Hwide c d Hc ltac:(lia)) as W. pose proof Hp as Hl. apply (local_comp c d) in Hl; [|lia]. destruct Hl as (L & Hx & Ho).
      pose proof (high_nonneg d ltac:(lia)) as Hh.
      destruct (Z.ltb_spec (vget p d) (iLo c d)) as [A|A].
      + pose proof (prev_hi c d Hc ltac:(lia)) as Pm. pose proof (Hwide (prev c d) d (shift_process dims high Hdims Hlen c d _ Hc ltac:(lia)) ltac:(lia)) as Wp.
        rewrite IH.
        * f_equal. apply wrap_shift; [exact L|lia|exact Hh|]. unfold off_lo. destruct (0 <? vget c d); auto.
        * lia.
        * apply (shift_process dims high Hdims Hlen); [exact Hc|lia].
        * apply local_neighbour; [exact Hc|lia|exact Hp|]. lia.
        * intros i Hii. destruct (Nat.eq_dec d i) as [<-|N].
          -- rewrite shift_d_same by lia. lia.
          -- rewrite shift_d_other by exact N. destruct (i_other c d (-1) i N) as [-> ->]. apply Hi. lia.
      + destruct (Z.ltb_spec (iHi c d) (vget p d)) as [B|B].
        * pose proof (next_lo c d Hc ltac:(lia)) as Pm. pose proof (Hwide (next c d) d (shift_process dims high Hdims Hlen c d _ Hc ltac:(lia)) ltac:(lia)) as Wp.
          rewrite IH.
          -- f_equal. apply wrap_shift; [exact L|lia|exact Hh|]. unfold off_hi. destruct (vget c d <? vget dims d - 1); auto.
          -- lia.
          -- apply (shift_process dims high Hdims Hlen); [exact Hc|lia].
          -- apply local_neighbour; [exact Hc|lia|exact Hp|]. lia.
          -- intros i Hii. destruct (Nat.eq_dec d i) as [<-|N].
             ++ rewrite shift_d_same by lia. lia.
             ++ rewrite shift_d_other by exact N. destruct (i_other c d 1 i N) as [-> ->]. apply Hi. lia.
        * apply IH; [lia|exact Hc|exact Hp|]. intros i Hii. destruct (Nat.eq_dec d i) as [<-|N]; [lia|]. apply Hi. lia.
  Qed.

  Lemma lval_outside prog m0 : (forall cl, In cl prog -> (cl_dim cl < length dims)%nat) ->
    forall k, (k <= length prog)%nat -> forall c p, is_process dims c -> ~ in_local (bd c) p ->
    MpiComm.lval plus cut dims high delta prog m0 k c p = m0 c p.
  Proof.
    intros Hp. induction k as [|k IH]; intros Hk c p Hc Hn; cbn [MpiComm.lval]; [reflexivity|].
    rewrite upd_outside; [apply IH; [lia|exact Hc|exact Hn]|exact Hc| |exact Hn]. apply Hp, nth_In. lia.
  Qed.

  Lemma xprog_dims cl : In cl xprog -> (cl_dim cl < length dims)%nat.
  Proof.
    unfold xprog, all_dims. rewrite in_flat_map. intros (d & Hd & Hc). apply in_seq in Hd.
    destruct Hc as [<-|[<-|[]]]; cbn [cl_dim]; lia.
  Qed.
End Values.
