(** Values after accumulation over all dimensions, on all processes. *)
From Coq Require Import Permutation.
From Verif Require Import Vec GridSpec RangeModel BoxFacts RangeProofs GridModel GridOpSpec GridProofs BoundaryModel BoundarySpec
  BoundaryProofs SerialProofs SubGridProofs NetModel NetProofs MpiModel MpiSpec MpiProofs MpiComm MpiExchange.
Local Open Scope Z_scope.
Local Arguments Z.mul : simpl never.
Local Arguments Z.add : simpl never.
Local Arguments Z.sub : simpl never.
Local Arguments Z.of_nat : simpl never.

(** ** Copies of a cell in one dimension *)
Section OneDim.
  Variable cut : Z -> Z -> Z -> Z.
  Variables (delta high n : Z).
  Hypothesis Hcut : cut_ok cut high n.
  Hypothesis Hn : 1 <= n.
  Hypothesis Hdelta : 1 <= delta.
  Notation ilo := (ilo cut delta high n).
  Notation ihi := (ihi cut delta high n).
  Hypothesis Hw : forall c, 0 <= c < n -> 2 * delta <= ihi c - ilo c + 1.

  Definition offl (c : Z) : Z := if 0 <? c then 0 else high + 1.
  Definition offh (c : Z) : Z := if c <? n - 1 then 0 else high + 1.
  Definition prev1 (c : Z) : Z := (c - 1) mod n.
  Definition next1 (c : Z) : Z := (c + 1) mod n.

  Lemma prev1_range c : 0 <= prev1 c < n. Proof. apply Z.mod_pos_bound. lia. Qed.
  Lemma next1_range c : 0 <= next1 c < n. Proof. apply Z.mod_pos_bound. lia. Qed.
  Lemma next_prev1 c : 0 <= c < n -> next1 (prev1 c) = c.
  Proof. intros H. unfold next1, prev1. rewrite Z.add_mod_idemp_l by lia. replace (c - 1 + 1) with c by lia. apply Z.mod_small, H. Qed.
  Lemma prev_next1 c : 0 <= c < n -> prev1 (next1 c) = c.
  Proof.
    intros H. unfold next1, prev1. rewrite Zminus_mod_idemp_l. replace (c + 1 - 1) with c by lia. apply Z.mod_small, H.
  Qed.
  Lemma pm c : 0 <= c < n -> ihi (prev1 c) + 1 = ilo c + offl c.
  Proof. intros H. apply prev_match; assumption. Qed.
  Lemma nm c : 0 <= c < n -> ilo (next1 c) + offh c = ihi c + 1.
  Proof. intros H. apply next_match; assumption. Qed.
  Lemma offh_prev c : 0 <= c < n -> offh (prev1 c) = offl c.
  Proof. intros H. pose proof (nm (prev1 c) (prev1_range c)) as A. rewrite next_prev1 in A by exact H. pose proof (pm c H). lia. Qed.
  Lemma offl_next c : 0 <= c < n -> offl (next1 c) = offh c.
  Proof. intros H. rewrite <- (offh_prev (next1 c)) by apply next1_range. rewrite prev_next1 by exact H. reflexivity. Qed.

  Lemma high0 : 0 <= high.
  Proof. pose proof (Hw 0 ltac:(lia)). pose proof (inner_in_global cut delta high n Hcut 0 (ilo 0) ltac:(lia) ltac:(lia)). lia. Qed.

  Lemma off_mod c : offl c mod (high + 1) = 0 /\ offh c mod (high + 1) = 0.
  Proof.
    pose proof high0. unfold offl, offh. split.
    - destruct (0 <? c); [apply Z.mod_0_l; lia|apply Z.mod_same; lia].
    - destruct (c <? n - 1); [apply Z.mod_0_l; lia|apply Z.mod_same; lia].
  Qed.

  (** The process that owns a cell of a local domain and its coordinate there. *)
  Definition own (c x : Z) : Z * Z :=
    if x <? ilo c then (prev1 c, x + offl c) else if ihi c <? x then (next1 c, x - offh c) else (c, x).

  Lemma own_ok c x : 0 <= c < n -> ilo c - delta <= x <= ihi c + delta ->
    0 <= fst (own c x) < n /\ ilo (fst (own c x)) <= snd (own c x) <= ihi (fst (own c x)) /\
    (x - snd (own c x)) mod (high + 1) = 0.
  Proof.
    intros Hc Hx. pose proof high0 as H0. pose proof (off_mod c) as [O1 O2]. unfold own. destruct (Z.ltb_spec x (ilo c)) as [A|A].
    - cbn [fst snd]. pose proof (prev1_range c). pose proof (pm c Hc). pose proof (Hw (prev1 c) ltac:(lia)).
      split; [lia|]. split; [lia|]. replace (x - (x + offl c)) with (- offl c) by lia. apply Z.mod_opp_l_z; [lia|exact O1].
    - destruct (Z.ltb_spec (ihi c) x) as [B|B]; cbn [fst snd].
      + pose proof (next1_range c). pose proof (nm c Hc). pose proof (Hw (next1 c) ltac:(lia)).
        split; [lia|]. split; [lia|]. replace (x - (x - offh c)) with (offh c) by lia. exact O2.
      + split; [lia|]. split; [lia|]. rewrite Z.sub_diag. apply Z.mod_0_l. lia.
  Qed.

  Lemma same_owner c x c' x' : 0 <= c < n -> 0 <= c' < n -> ilo c - delta <= x <= ihi c + delta ->
    ilo c' - delta <= x' <= ihi c' + delta -> (x - x') mod (high + 1) = 0 -> own c x = own c' x'.
  Proof.
    intros Hc Hc' Hx Hx' E. pose proof high0 as H0.
    destruct (own_ok c x Hc Hx) as (A1 & A2 & A3). destruct (own_ok c' x' Hc' Hx') as (B1 & B2 & B3).
    destruct (own c x) as [o y]. destruct (own c' x') as [o' y']. cbn [fst snd] in *.
    pose proof (inner_in_global cut delta high n Hcut o y A1 A2) as Gy.
    pose proof (inner_in_global cut delta high n Hcut o' y' B1 B2) as Gy'.
    assert (Ey : y = y').
    { apply Z.mod_divide in A3; [|lia]. apply Z.mod_divide in B3; [|lia]. apply Z.mod_divide in E; [|lia].
      destruct A3 as [a A3]. destruct B3 as [b B3]. destruct E as [e E].
      assert (y - y' = (e - a + b) * (high + 1)) by lia. assert (e - a + b = 0) by nia. nia. }
    subst y'. f_equal. apply (owner_unique cut delta high n Hcut o o' y); assumption.
  Qed.

  Lemma copies c x c' x' : 0 <= c < n -> 0 <= c' < n -> ilo c - delta <= x <= ihi c + delta ->
    ilo c' - delta <= x' <= ihi c' + delta -> (x - x') mod (high + 1) = 0 ->
    (c' = c /\ x' = x) \/ (x < ilo c + delta /\ c' = prev1 c /\ x' = x + offl c) \/
    (ihi c - delta < x /\ c' = next1 c /\ x' = x - offh c).
  Proof.
    intros Hc Hc' Hx Hx' E. pose proof (same_owner c x c' x' Hc Hc' Hx Hx' E) as O. unfold own in O.
    pose proof (pm c Hc) as P. pose proof (nm c Hc) as N. pose proof (pm c' Hc') as P'. pose proof (nm c' Hc') as N'.
    destruct (Z.ltb_spec x (ilo c)) as [A|A]; [|destruct (Z.ltb_spec (ihi c) x) as [B|B]];
      (destruct (Z.ltb_spec x' (ilo c')) as [A'|A']; [|destruct (Z.ltb_spec (ihi c') x') as [B'|B']]);
      injection O as O1 O2.
    - assert (c' = c) by (rewrite <- (next_prev1 c), O1, next_prev1; auto). subst c'. left. lia.
    - exfalso. rewrite <- O1 in N'. pose proof (Hw (prev1 c) (prev1_range c)). lia.
    - right. left. subst c'. split; [lia|]. split; [reflexivity|lia].
    - exfalso. rewrite <- O1 in P'. pose proof (Hw (next1 c) (next1_range c)). lia.
    - assert (c' = c) by (rewrite <- (prev_next1 c), O1, prev_next1; auto). subst c'. left. lia.
    - right. right. subst c'. split; [lia|]. split; [reflexivity|lia].
    - right. right. assert (c' = next1 c) by (rewrite O1, next_prev1; auto). subst c'. rewrite offl_next in * by exact Hc.
      split; [lia|]. split; [reflexivity|lia].
    - right. left. assert (c' = prev1 c) by (rewrite O1, prev_next1; auto). subst c'. rewrite offh_prev in * by exact Hc.
      split; [lia|]. split; [reflexivity|lia].
    - left. lia.
  Qed.
End OneDim.

Section Acc.
  Context {V : Type}.
  Variables (plus : V -> V -> V) (zero : V).
  Hypothesis plus_comm : forall a b, plus a b = plus b a.
  Hypothesis plus_assoc : forall a b c, plus (plus a b) c = plus a (plus b c).
  Hypothesis plus_0 : forall a, plus zero a = a.
  Variable cut : Z -> Z -> Z -> Z.
  Variables (dims high : vec) (delta : Z).
  Let bd := mpi_bounds cut dims high delta.
  Hypothesis Hdims : process_grid dims.
  Hypothesis Hlen : length high = length dims.
  Hypothesis Hcuts : forall i, (i < length dims)%nat -> cut_ok cut (vget high i) (vget dims i).
  Hypothesis Hdelta : 1 <= delta.
  Notation iLo := (iLo cut dims high delta).
  Notation iHi := (iHi cut dims high delta).
  Hypothesis Hwide2 : forall c i, is_process dims c -> (i < length dims)%nat -> 2 * delta <= iHi c i - iLo c i + 1.

  Lemma Hwide1 c i : is_process dims c -> (i < length dims)%nat -> delta <= iHi c i - iLo c i + 1.
  Proof. intros Hc Hi. pose proof (Hwide2 c i Hc Hi). lia. Qed.

  Notation ra := (ra cut dims high delta).
  Notation rslab := (rslab cut dims high delta).
  Notation upd_call := (upd_call plus cut dims high delta).
  Notation prev c d := (cart_shift dims c d (-1)).
  Notation next c d := (cart_shift dims c d 1).
  Notation off_lo := (off_lo high).
  Notation off_hi := (off_hi dims high).

  Let sp := shift_process dims high Hdims Hlen.
  Let sb := shift_back dims high Hdims Hlen.

  Lemma w1 i c : (i < length dims)%nat -> 0 <= c < vget dims i ->
    2 * delta <= ihi cut delta (vget high i) (vget dims i) c - ilo cut delta (vget high i) (vget dims i) c + 1.
  Proof.
    intros Hi Hc. set (v := vset (map (fun _ => 0) dims) i c).
    assert (Pv : is_process dims v).
    { unfold v. split; [rewrite vset_length; apply map_length|]. intros j Hj. destruct (Nat.eq_dec i j) as [<-|N].
      - rewrite vget_vset_same by (rewrite map_length; exact Hi). exact Hc.
      - rewrite vget_vset_other by exact N. rewrite vget_map by exact Hj. pose proof (Hdims j Hj). lia. }
    pose proof (Hwide2 v i Pv Hi) as K. unfold MpiProofs.iLo, MpiProofs.iHi, v in K.
    rewrite vget_vset_same in K by (rewrite map_length; exact Hi). exact K.
  Qed.

  Lemma get_prev c d : is_process dims c -> (d < length dims)%nat -> vget (prev c d) d = prev1 (vget dims d) (vget c d).
  Proof. intros [L _] Hd. unfold cart_shift, prev1. rewrite vget_vset_same by lia. reflexivity. Qed.
  Lemma get_next c d : is_process dims c -> (d < length dims)%nat -> vget (next c d) d = next1 (vget dims d) (vget c d).
  Proof. intros [L _] Hd. unfold cart_shift, next1. rewrite vget_vset_same by lia. reflexivity. Qed.

  Lemma off_hi_prev c d : is_process dims c -> (d < length dims)%nat -> off_hi (prev c d) d = off_lo c d.
  Proof.
    intros Hc Hd. pose proof (next_lo cut dims high delta Hlen (prev c d) d (sp c d _ Hc Hd) Hd) as A.
    rewrite sb in A by (try assumption; lia). pose proof (prev_hi cut dims high delta Hdims Hlen c d Hc Hd). lia.
  Qed.
  Lemma off_lo_next c d : is_process dims c -> (d < length dims)%nat -> off_lo (next c d) d = off_hi c d.
  Proof.
    intros Hc Hd. pose proof (prev_hi cut dims high delta Hdims Hlen (next c d) d (sp c d _ Hc Hd) Hd) as A.
    rewrite sb in A by (try assumption; lia). pose proof (next_lo cut dims high delta Hlen c d Hc Hd). lia.
  Qed.

  Definition a1 (d : nat) : call := mkCall d true (Source Max) (Ghost Min) true.
  Definition a2 (d : nat) : call := mkCall d false (Ghost Min) (Source Max) false.
  Definition a3 (d : nat) : call := mkCall d false (Source Min) (Ghost Max) true.
  Definition a4 (d : nat) : call := mkCall d true (Ghost Max) (Source Min) false.

  Lemma offset_a c d : is_process dims c -> (d < length dims)%nat ->
    offset cut dims high delta (a1 d) c = off_lo c d /\ offset cut dims high delta (a2 d) c = - off_hi c d /\
    offset cut dims high delta (a3 d) c = - off_hi c d /\ offset cut dims high delta (a4 d) c = off_lo c d.
  Proof.
    intros Hc Hd. pose proof (prev_hi cut dims high delta Hdims Hlen c d Hc Hd). pose proof (next_lo cut dims high delta Hlen c d Hc Hd).
    unfold offset, sender, a1, a2, a3, a4. cbn [cl_dim cl_up cl_from cl_to MpiComm.ra].
    repeat split; lia.
  Qed.

  (** In which part of the local domain of [c] the coordinate lies. *)
  Lemma rs c d r p : (d < length dims)%nat -> in_local (bd c) p ->
    (rslab c d r p <-> ra c d r <= vget p d <= ra c d r + delta - 1).
  Proof.
    intros Hd Hp. rewrite rslab_iff by assumption. apply (local_comp cut dims high delta c d) in Hp; [|assumption].
    tauto.
  Qed.

  Definition partner (d : nat) (c p : vec) : option (vec * vec) :=
    if vget p d <? iLo c d + delta then Some (prev c d, shift_d d (off_lo c d) p)
    else if iHi c d - delta <? vget p d then Some (next c d, shift_d d (- off_hi c d) p)
    else None.

  Lemma partner_ok d c p c' q : is_process dims c -> (d < length dims)%nat -> in_local (bd c) p -> partner d c p = Some (c', q) ->
    is_process dims c' /\ in_local (bd c') q.
  Proof.
    intros Hc Hd Hp E. unfold partner in E. pose proof Hp as Hl. apply (local_comp cut dims high delta c d) in Hl; [|assumption].
    destruct Hl as (_ & Hx & _).
    destruct (Z.ltb_spec (vget p d) (iLo c d + delta)) as [A|A].
    - injection E as <- <-. split; [apply sp; assumption|]. apply local_neighbour; [assumption..|].
      pose proof (prev_hi cut dims high delta Hdims Hlen c d Hc Hd). pose proof (Hwide2 (prev c d) d (sp c d _ Hc Hd) Hd). lia.
    - destruct (Z.ltb_spec (iHi c d - delta) (vget p d)) as [B|B]; [|discriminate].
      injection E as <- <-. split; [apply sp; assumption|]. apply local_neighbour; [assumption..|].
      pose proof (next_lo cut dims high delta Hlen c d Hc Hd). pose proof (Hwide2 (next c d) d (sp c d _ Hc Hd) Hd). lia.
  Qed.

  Lemma acc_dim_values m d c p : is_process dims c -> (d < length dims)%nat -> in_local (bd c) p ->
    upd_call (a4 d) (upd_call (a3 d) (upd_call (a2 d) (upd_call (a1 d) m))) c p =
    match partner d c p with Some (c', q) => plus (m c p) (m c' q) | None => m c p end.
  Proof.
    intros Hc Hd Hp. pose proof (Hwide2 c d Hc Hd) as W.
    pose proof Hp as Hl. apply (local_comp cut dims high delta c d) in Hl; [|assumption]. destruct Hl as (L & Hx & _).
    destruct (offset_a c d Hc Hd) as (O1 & O2 & O3 & O4).
    pose proof (prev_hi cut dims high delta Hdims Hlen c d Hc Hd) as Ph. pose proof (next_lo cut dims high delta Hlen c d Hc Hd) as Nl.
    pose proof (sp c d (-1) Hc Hd) as Hcp. pose proof (sp c d 1 Hc Hd) as Hcn.
    pose proof (Hwide2 _ d Hcp Hd) as Wp. pose proof (Hwide2 _ d Hcn Hd) as Wn.
    assert (Out : forall cl mm c' p', cl_dim cl = d -> in_local (bd c') p' ->
              ~ (ra c' d (cl_to cl) <= vget p' d <= ra c' d (cl_to cl) + delta - 1) -> upd_call cl mm c' p' = mm c' p').
    { intros cl mm c' p' Ecl Hp' K. apply upd_out; [lia|]. rewrite Ecl, rs by assumption. exact K. }
    assert (In_ : forall cl mm c' p', cl_dim cl = d -> in_local (bd c') p' ->
              ra c' d (cl_to cl) <= vget p' d <= ra c' d (cl_to cl) + delta - 1 ->
              upd_call cl mm c' p' = let v := mm (sender dims cl c') (shift_d d (offset cut dims high delta cl c') p') in
                                     if cl_add cl then plus (mm c' p') v else v).
    { intros cl mm c' p' Ecl Hp' K. rewrite <- Ecl. apply upd_in; [lia|]. rewrite Ecl, rs by assumption. exact K. }
    unfold partner. destruct (Z.ltb_spec (vget p d) (iLo c d + delta)) as [A|A].
    - assert (Lq : in_local (bd (prev c d)) (shift_d d (off_lo c d) p)) by (apply local_neighbour; [assumption..|lia]).
      destruct (Z_lt_dec (vget p d) (iLo c d)) as [A1|A1].
      + rewrite (Out (a4 d)), (Out (a3 d)), (Out (a2 d)) by (try reflexivity; try assumption; cbn [cl_to a4 a3 a2 MpiComm.ra]; lia).
        rewrite (In_ (a1 d)) by (try reflexivity; try assumption; cbn [cl_to a1 MpiComm.ra]; lia).
        rewrite O1. reflexivity.
      + rewrite (In_ (a4 d)) by (try reflexivity; try assumption; cbn [cl_to a4 MpiComm.ra]; lia).
        rewrite O4. change (sender dims (a4 d) c) with (prev c d). cbn [cl_add a4]. cbn zeta.
        destruct (offset_a (prev c d) d Hcp Hd) as (_ & _ & O3' & _).
        rewrite (In_ (a3 d)) by (try reflexivity; try assumption; cbn [cl_to a3 MpiComm.ra]; rewrite ?shift_d_same by lia; lia).
        rewrite O3'. change (sender dims (a3 d) (prev c d)) with (next (prev c d) d). rewrite sb by (try assumption; lia).
        rewrite off_hi_prev by assumption. rewrite shift_d_shift by lia. rewrite Z.add_opp_diag_r, shift_d_0. cbn [cl_add a3]. cbn zeta.
        rewrite (Out (a2 d)) by (try reflexivity; try assumption; cbn [cl_to a2 MpiComm.ra]; rewrite ?shift_d_same by lia; lia).
        rewrite (Out (a1 d)) by (try reflexivity; try assumption; cbn [cl_to a1 MpiComm.ra]; rewrite ?shift_d_same by lia; lia).
        rewrite (Out (a2 d)) by (try reflexivity; try assumption; cbn [cl_to a2 MpiComm.ra]; lia).
        rewrite (Out (a1 d)) by (try reflexivity; try assumption; cbn [cl_to a1 MpiComm.ra]; lia).
        apply plus_comm.
    - destruct (Z.ltb_spec (iHi c d - delta) (vget p d)) as [B|B].
      + assert (Lq : in_local (bd (next c d)) (shift_d d (- off_hi c d) p)) by (apply local_neighbour; [assumption..|lia]).
        destruct (Z_lt_dec (iHi c d) (vget p d)) as [B1|B1].
        * rewrite (Out (a4 d)) by (try reflexivity; try assumption; cbn [cl_to a4 MpiComm.ra]; lia).
          rewrite (In_ (a3 d)) by (try reflexivity; try assumption; cbn [cl_to a3 MpiComm.ra]; lia).
          rewrite O3. change (sender dims (a3 d) c) with (next c d). cbn [cl_add a3]. cbn zeta.
          rewrite (Out (a2 d)) by (try reflexivity; try assumption; cbn [cl_to a2 MpiComm.ra]; lia).
          rewrite (Out (a1 d)) by (try reflexivity; try assumption; cbn [cl_to a1 MpiComm.ra]; lia).
          rewrite (Out (a2 d)) by (try reflexivity; try assumption; cbn [cl_to a2 MpiComm.ra]; rewrite ?shift_d_same by lia; lia).
          rewrite (Out (a1 d)) by (try reflexivity; try assumption; cbn [cl_to a1 MpiComm.ra]; rewrite ?shift_d_same by lia; lia).
          reflexivity.
        * rewrite (Out (a4 d)), (Out (a3 d)) by (try reflexivity; try assumption; cbn [cl_to a4 a3 MpiComm.ra]; lia).
          rewrite (In_ (a2 d)) by (try reflexivity; try assumption; cbn [cl_to a2 MpiComm.ra]; lia).
          rewrite O2. change (sender dims (a2 d) c) with (next c d). cbn [cl_add a2]. cbn zeta.
          destruct (offset_a (next c d) d Hcn Hd) as (O1' & _).
          rewrite (In_ (a1 d)) by (try reflexivity; try assumption; cbn [cl_to a1 MpiComm.ra]; rewrite ?shift_d_same by lia; lia).
          rewrite O1'. change (sender dims (a1 d) (next c d)) with (prev (next c d) d). rewrite sb by (try assumption; lia).
          rewrite off_lo_next by assumption. rewrite shift_d_shift by lia. rewrite Z.add_opp_diag_l, shift_d_0. cbn [cl_add a1]. cbn zeta.
          apply plus_comm.
      + rewrite (Out (a4 d)), (Out (a3 d)), (Out (a2 d)), (Out (a1 d))
          by (try reflexivity; try assumption; cbn [cl_to a4 a3 a2 a1 MpiComm.ra]; lia).
        reflexivity.
  Qed.

  (** ** Copies of a cell *)
  Definition class_k (k : nat) (a b : vec * vec) : Prop :=
    length (fst b) = length dims /\ length (snd b) = length dims /\
    forall i, (i < length dims)%nat ->
      if (i <? k)%nat then (vget (snd a) i - vget (snd b) i) mod (vget high i + 1) = 0
      else vget (fst b) i = vget (fst a) i /\ vget (snd b) i = vget (snd a) i.

  Definition class_kb (k : nat) (a b : vec * vec) : bool :=
    forallb (fun i => if (i <? k)%nat then (vget (snd a) i - vget (snd b) i) mod (vget high i + 1) =? 0
                      else (vget (fst b) i =? vget (fst a) i) && (vget (snd b) i =? vget (snd a) i)) (seq 0 (length dims)).

  Lemma class_kb_iff k a b : length (fst b) = length dims -> length (snd b) = length dims ->
    class_kb k a b = true <-> class_k k a b.
  Proof.
    intros L1 L2. unfold class_kb, class_k. rewrite forallb_forall. split.
    - intros H. split; [exact L1|]. split; [exact L2|]. intros i Hi. specialize (H i (proj2 (in_seq _ _ _) (conj (Nat.le_0_l i) Hi))).
      destruct (i <? k)%nat; [apply Z.eqb_eq, H|]. apply andb_true_iff in H. rewrite !Z.eqb_eq in H. exact H.
    - intros (_ & _ & H) i Hi. apply in_seq in Hi. specialize (H i ltac:(lia)). destruct (i <? k)%nat; [apply Z.eqb_eq, H|].
      apply andb_true_iff. rewrite !Z.eqb_eq. exact H.
  Qed.

  Definition everything : list (vec * vec) :=
    flat_map (fun c => map (fun p => (c, p)) (box (bd_lo (bd c)) (bd_hi (bd c)))) (plist dims).

  Lemma everything_In c p : In (c, p) everything <-> is_process dims c /\ in_local (bd c) p.
  Proof.
    unfold everything. rewrite in_flat_map. split.
    - intros (x & Hx & Hi). apply in_map_iff in Hi. destruct Hi as (y & E & Hy). injection E as -> ->.
      apply (plist_In dims high Hlen) in Hx. apply box_In in Hy. auto.
    - intros [Hc Hp]. exists c. split; [apply (plist_In dims high Hlen), Hc|]. apply in_map_iff. exists p. split; [reflexivity|]. apply box_In, Hp.
  Qed.
  Lemma everything_NoDup : NoDup everything.
  Proof.
    unfold everything. generalize (plist_NoDup dims). generalize (plist dims). induction l as [|c l IH]; intros Nd; cbn [flat_map]; [constructor|].
    inversion Nd as [|? ? Nc Nd']; subst.
    assert (N1 : NoDup (map (fun p => (c, p)) (box (bd_lo (bd c)) (bd_hi (bd c))))).
    { apply NoDup_map_in; [|apply box_NoDup]. intros x y _ _ E. injection E. auto. }
    assert (Nin : forall x, In x (map (fun p => (c, p)) (box (bd_lo (bd c)) (bd_hi (bd c)))) ->
              ~ In x (flat_map (fun c => map (fun p => (c, p)) (box (bd_lo (bd c)) (bd_hi (bd c)))) l)).
    { intros x H1 H2. apply in_map_iff in H1. destruct H1 as (y & <- & _). apply in_flat_map in H2. destruct H2 as (z & Hz & H2).
      apply in_map_iff in H2. destruct H2 as (y' & E & _). injection E as -> _. contradiction. }
    revert N1 Nin. generalize (map (fun p => (c, p)) (box (bd_lo (bd c)) (bd_hi (bd c)))). specialize (IH Nd').
    intros l1 N1 Nin. induction l1 as [|x l1 IHl]; [exact IH|]. inversion N1 as [|? ? Nx N1']; subst. cbn [app]. constructor.
    - rewrite in_app_iff. intros [K|K]; [contradiction|]. apply (Nin x); [left; reflexivity|exact K].
    - apply IHl; [assumption|]. intros y Hy. apply Nin. right; exact Hy.
  Qed.

  Definition cells (k : nat) (a : vec * vec) : list (vec * vec) := filter (class_kb k a) everything.
  Lemma cells_In k a c p : In (c, p) (cells k a) <-> is_process dims c /\ in_local (bd c) p /\ class_k k a (c, p).
  Proof.
    unfold cells. rewrite filter_In, everything_In. split.
    - intros [[A B] C]. split; [exact A|]. split; [exact B|]. apply class_kb_iff; [apply A|apply local_iff in B; apply B|exact C].
    - intros (A & B & C). split; [split; assumption|]. apply class_kb_iff; [apply A|apply local_iff in B; apply B|exact C].
  Qed.
  Lemma cells_NoDup k a : NoDup (cells k a). Proof. apply NoDup_filter, everything_NoDup. Qed.

  Lemma cells_0 c p : is_process dims c -> in_local (bd c) p -> Permutation (cells 0 (c, p)) [(c, p)].
  Proof.
    intros Hc Hp. apply NoDup_Permutation; [apply cells_NoDup|constructor; [intros []|constructor]|].
    intros [c' q]. rewrite cells_In. simpl. split.
    - intros (_ & _ & L1 & L2 & H). cbn [fst snd] in *. left. apply local_iff in Hp. destruct Hc as [Lc _]. destruct Hp as [Lp _].
      f_equal; (apply vec_ext; [congruence|]); intros i Hi; symmetry; apply (H i); lia.
    - intros [E|[]]. injection E as <- <-. split; [exact Hc|]. split; [exact Hp|]. apply local_iff in Hp. destruct Hc as [Lc _].
      split; [exact Lc|]. split; [apply Hp|]. intros i Hi. cbn [fst snd]. destruct (Nat.ltb_spec i 0); [lia|]. auto.
  Qed.

  Lemma partner_distinct k c p c' q : is_process dims c -> (k < length dims)%nat -> in_local (bd c) p ->
    partner k c p = Some (c', q) -> vget c' k = vget c k -> vget q k = vget p k -> False.
  Proof.
    intros Hc Hk Hp E E1 E2. pose proof Hc as [Lc Pc]. specialize (Pc k Hk). apply local_iff in Hp. destruct Hp as [Lp _].
    pose proof (high0 cut delta _ _ (Hcuts k Hk) (Hdims k Hk) Hdelta (fun x Hx => w1 k x Hk Hx)) as H0.
    unfold partner in E. destruct (vget p k <? iLo c k + delta).
    - injection E as <- <-. rewrite shift_d_same in E2 by lia. rewrite get_prev in E1 by assumption. unfold prev1 in E1.
      assert (O : off_lo c k = 0) by lia. unfold MpiExchange.off_lo in O. destruct (Z.ltb_spec 0 (vget c k)); [|lia].
      rewrite Z.mod_small in E1 by lia. lia.
    - destruct (iHi c k - delta <? vget p k); [|discriminate]. injection E as <- <-.
      rewrite shift_d_same in E2 by lia. rewrite get_next in E1 by assumption. unfold next1 in E1.
      assert (O : off_hi c k = 0) by lia. unfold MpiExchange.off_hi in O. destruct (Z.ltb_spec (vget c k) (vget dims k - 1)); [|lia].
      rewrite Z.mod_small in E1 by lia. lia.
  Qed.

  Lemma partner_other k c p c' q i : partner k c p = Some (c', q) -> i <> k -> vget c' i = vget c i /\ vget q i = vget p i.
  Proof.
    intros E N. unfold partner in E. destruct (vget p k <? iLo c k + delta).
    - injection E as <- <-. rewrite shift_other, shift_d_other by congruence. auto.
    - destruct (iHi c k - delta <? vget p k); [|discriminate]. injection E as <- <-. rewrite shift_other, shift_d_other by congruence. auto.
  Qed.

  Lemma partner_mod k c p c' q : is_process dims c -> (k < length dims)%nat -> in_local (bd c) p ->
    partner k c p = Some (c', q) -> (vget p k - vget q k) mod (vget high k + 1) = 0.
  Proof.
    intros Hc Hk Hp E. apply local_iff in Hp. destruct Hp as [Lp _].
    pose proof (high0 cut delta _ _ (Hcuts k Hk) (Hdims k Hk) Hdelta (fun x Hx => w1 k x Hk Hx)) as H0.
    destruct (off_mod cut delta _ _ (Hcuts k Hk) (Hdims k Hk) Hdelta (fun x Hx => w1 k x Hk Hx) (vget c k)) as [M1 M2].
    unfold partner in E. destruct (vget p k <? iLo c k + delta).
    - injection E as <- <-. rewrite shift_d_same by lia. replace (vget p k - (vget p k + off_lo c k)) with (- off_lo c k) by lia.
      apply Z.mod_opp_l_z; [lia|exact M1].
    - destruct (iHi c k - delta <? vget p k); [|discriminate]. injection E as <- <-. rewrite shift_d_same by lia.
      replace (vget p k - (vget p k + - off_hi c k)) with (off_hi c k) by lia. exact M2.
  Qed.

  Lemma cells_step k c p : (k < length dims)%nat -> is_process dims c -> in_local (bd c) p ->
    Permutation (cells (S k) (c, p))
      (cells k (c, p) ++ match partner k c p with Some a => cells k a | None => [] end).
  Proof.
    intros Hk Hc Hp. pose proof Hp as Hl. apply local_iff in Hl. destruct Hl as [Lp Hpx].
    pose proof (high0 cut delta _ _ (Hcuts k Hk) (Hdims k Hk) Hdelta (fun x Hx => w1 k x Hk Hx)) as H0.
    apply NoDup_Permutation.
    - apply cells_NoDup.
    - destruct (partner k c p) as [[c' q]|] eqn:Eq; [|rewrite app_nil_r; apply cells_NoDup].
      assert (Nin : forall x, In x (cells k (c, p)) -> ~ In x (cells k (c', q))).
      { intros [x y] H1 H2. apply cells_In in H1. apply cells_In in H2. destruct H1 as (_ & _ & _ & _ & H1). destruct H2 as (_ & _ & _ & _ & H2).
        specialize (H1 k Hk). specialize (H2 k Hk). rewrite Nat.ltb_irrefl in H1, H2. cbn [fst snd] in *.
        eapply partner_distinct; [exact Hc|exact Hk|exact Hp|exact Eq|lia|lia]. }
      revert Nin. generalize (cells_NoDup k (c, p)) (cells_NoDup k (c', q)). generalize (cells k (c, p)) (cells k (c', q)).
      intros l1 l2 N1 N2 Nin. induction l1 as [|x l1 IH]; [exact N2|]. inversion N1; subst. simpl. constructor.
      + rewrite in_app_iff. intros [K|K]; [contradiction|]. apply (Nin x); [left; reflexivity|exact K].
      + apply IH; [assumption|]. intros y Hy. apply Nin. right; exact Hy.
    - intros [c' q]. rewrite in_app_iff, !cells_In. split.
      + intros (Hc' & Hq & L1 & L2 & H). cbn [fst snd] in *.
        pose proof (H k Hk) as Hkk. destruct (Nat.ltb_spec k (S k)) as [_|]; [|lia].
        pose proof Hq as Hql. apply local_iff in Hql. destruct Hql as [Lq Hqx].
        assert (Rest : forall i, (i < length dims)%nat -> i <> k ->
                  if (i <? k)%nat then (vget p i - vget q i) mod (vget high i + 1) = 0 else vget c' i = vget c i /\ vget q i = vget p i).
        { intros i Hi Ne. specialize (H i Hi). destruct (Nat.ltb_spec i k), (Nat.ltb_spec i (S k)); try lia; exact H. }
        destruct (copies cut delta (vget high k) (vget dims k) (Hcuts k Hk) (Hdims k Hk) Hdelta (fun x Hx => w1 k x Hk Hx)
                    (vget c k) (vget p k) (vget c' k) (vget q k)) as [[E1 E2]|[(A & E1 & E2)|(A & E1 & E2)]].
        * apply Hc, Hk.
        * apply Hc', Hk.
        * apply (Hpx k Hk).
        * apply (Hqx k Hk).
        * exact Hkk.
        * left. split; [exact Hc'|]. split; [exact Hq|]. split; [exact L1|]. split; [exact L2|]. intros i Hi. cbn [fst snd].
          destruct (Nat.eq_dec i k) as [->|Ne]; [rewrite Nat.ltb_irrefl; auto|]. apply Rest; assumption.
        * right. unfold partner. destruct (Z.ltb_spec (vget p k) (iLo c k + delta)) as [_|X]; [|unfold MpiProofs.iLo in X; lia].
          apply cells_In. split; [exact Hc'|]. split; [exact Hq|]. split; [exact L1|]. split; [exact L2|]. intros i Hi. cbn [fst snd].
          destruct (Nat.eq_dec i k) as [->|Ne].
          -- rewrite Nat.ltb_irrefl, shift_d_same, get_prev by (try assumption; lia). split; [exact E1|exact E2].
          -- rewrite shift_d_other, shift_other by congruence. apply Rest; assumption.
        * right. unfold partner. pose proof (w1 k (vget c k) Hk ltac:(apply Hc, Hk)) as W.
          destruct (Z.ltb_spec (vget p k) (iLo c k + delta)) as [X|_]; [unfold MpiProofs.iLo in X; lia|].
          destruct (Z.ltb_spec (iHi c k - delta) (vget p k)) as [_|X]; [|unfold MpiProofs.iHi in X; lia].
          apply cells_In. split; [exact Hc'|]. split; [exact Hq|]. split; [exact L1|]. split; [exact L2|]. intros i Hi. cbn [fst snd].
          destruct (Nat.eq_dec i k) as [->|Ne].
          -- rewrite Nat.ltb_irrefl, shift_d_same, get_next by (try assumption; lia). split; [exact E1|].
             change (off_hi c k) with (offh (vget high k) (vget dims k) (vget c k)). lia.
          -- rewrite shift_d_other, shift_other by congruence. apply Rest; assumption.
      + intros [(Hc' & Hq & L1 & L2 & H)|H].
        * split; [exact Hc'|]. split; [exact Hq|]. split; [exact L1|]. split; [exact L2|]. intros i Hi. specialize (H i Hi).
          cbn [fst snd] in *. destruct (Nat.ltb_spec i k), (Nat.ltb_spec i (S k)); try lia; try exact H.
          destruct H as [_ ->]. rewrite Z.sub_diag. apply Z.mod_0_l. assert (i = k) by lia. subst i. lia.
        * destruct (partner k c p) as [[cc qq]|] eqn:Eq; [|destruct H]. apply cells_In in H. destruct H as (Hc' & Hq & L1 & L2 & H).
          split; [exact Hc'|]. split; [exact Hq|]. split; [exact L1|]. split; [exact L2|]. intros i Hi. specialize (H i Hi).
          cbn [fst snd] in *. destruct (Nat.eq_dec i k) as [->|Ne].
          -- rewrite Nat.ltb_irrefl in H. destruct (Nat.ltb_spec k (S k)); [|lia]. destruct H as [_ ->].
             exact (partner_mod k c p cc qq Hc Hk Hp Eq).
          -- destruct (partner_other k c p cc qq i Eq Ne) as [E1 E2]. rewrite E1, E2 in H.
             destruct (Nat.ltb_spec i k), (Nat.ltb_spec i (S k)); try lia; exact H.
  Qed.

  (** ** Sums *)
  Fixpoint psum (m : vec -> vec -> V) (l : list (vec * vec)) : V :=
    match l with
    | [] => zero
    | (c, q) :: l' => plus (m c q) (psum m l')
    end.
  Lemma psum_app m l1 l2 : psum m (l1 ++ l2) = plus (psum m l1) (psum m l2).
  Proof.
    induction l1 as [|[c q] l1 IH]; cbn [app psum]; [symmetry; apply plus_0|]. rewrite IH, plus_assoc. reflexivity.
  Qed.
  Lemma psum_perm m l1 l2 : Permutation l1 l2 -> psum m l1 = psum m l2.
  Proof.
    induction 1 as [|[c q] l l' _ IH|[c q] [c' q'] l|l l' l'' _ IH1 _ IH2]; cbn [psum].
    1: reflexivity. 1: rewrite IH; reflexivity. 2: congruence.
    rewrite <- !plus_assoc, (plus_comm (m c' q')). reflexivity.
  Qed.

  Definition aprog : list call := all_dims accumulate_calls (length dims).
  Lemma acall d j : (d < length dims)%nat -> (j < 4)%nat ->
    the_call aprog (d * 4 + j) = nth j [a1 d; a2 d; a3 d; a4 d] (mkCall 0 true (Ghost Min) (Ghost Min) false).
  Proof. intros Hd Hj. apply (the_call_all accumulate_calls 4); [reflexivity|exact Hd|exact Hj]. Qed.
  Notation lval := (lval plus cut dims high delta aprog).

  Lemma accumulate_values m0 : forall d, (d <= length dims)%nat -> forall c p, is_process dims c -> in_local (bd c) p ->
    lval m0 (d * 4) c p = psum m0 (cells d (c, p)).
  Proof.
    induction d as [|d IH]; intros Hd c p Hc Hp.
    - cbn [Nat.mul MpiComm.lval]. rewrite (psum_perm m0 _ _ (cells_0 c p Hc Hp)). cbn [psum]. rewrite plus_comm. symmetry. apply plus_0.
    - replace (S d * 4)%nat with (S (S (S (S (d * 4))))) by lia. cbn [MpiComm.lval].
      pose proof (acall d 0 ltac:(lia) ltac:(lia)) as C0. pose proof (acall d 1 ltac:(lia) ltac:(lia)) as C1.
      pose proof (acall d 2 ltac:(lia) ltac:(lia)) as C2. pose proof (acall d 3 ltac:(lia) ltac:(lia)) as C3.
      cbn [nth] in C0, C1, C2, C3.
      replace (d * 4 + 0)%nat with (d * 4)%nat in C0 by lia. replace (d * 4 + 1)%nat with (S (d * 4)) in C1 by lia.
      replace (d * 4 + 2)%nat with (S (S (d * 4))) in C2 by lia. replace (d * 4 + 3)%nat with (S (S (S (d * 4)))) in C3 by lia.
      rewrite C0, C1, C2, C3. rewrite acc_dim_values by (try assumption; lia).
      rewrite (psum_perm m0 _ _ (cells_step d c p ltac:(lia) Hc Hp)), psum_app.
      destruct (partner d c p) as [[c' q]|] eqn:Eq.
      + destruct (partner_ok d c p c' q Hc ltac:(lia) Hp Eq) as [Hc' Hq].
        rewrite (IH ltac:(lia) c p Hc Hp), (IH ltac:(lia) c' q Hc' Hq). reflexivity.
      + rewrite (IH ltac:(lia) c p Hc Hp). cbn [psum]. rewrite plus_comm. symmetry. apply plus_0.
  Qed.

  Lemma aprog_dims cl : In cl aprog -> (cl_dim cl < length dims)%nat.
  Proof.
    unfold aprog, all_dims. rewrite in_flat_map. intros (d & Hd & Hc). apply in_seq in Hd.
    destruct Hc as [<-|[<-|[<-|[<-|[]]]]]; cbn [cl_dim]; lia.
  Qed.

  (** The complete class: all copies of the same global cell. *)
  Lemma cells_all c p c' q : is_process dims c -> in_local (bd c) p ->
    In (c', q) (cells (length dims) (c, p)) <-> is_process dims c' /\ in_local (bd c') q /\ wrap high q = wrap high p.
  Proof.
    intros Hc Hp. rewrite cells_In. split; intros (A & B & C); (split; [exact A|split; [exact B|]]).
    - destruct C as (L1 & L2 & C). cbn [fst snd] in *. unfold wrap. apply map_ext_in. intros i Hi. apply in_seq in Hi.
      specialize (C i ltac:(lia)). destruct (Nat.ltb_spec i (length dims)); [|lia].
      pose proof (high0 cut delta _ _ (Hcuts i ltac:(lia)) (Hdims i ltac:(lia)) Hdelta (fun x Hx => w1 i x ltac:(lia) Hx)) as H0.
      apply Z.mod_divide in C; [|lia]. destruct C as [z C].
      replace (vget p i) with (vget q i + z * (vget high i + 1)) by lia. symmetry. apply Z.mod_add. lia.
    - pose proof B as B'. apply local_iff in B'. split; [apply A|]. split; [apply B'|]. cbn [fst snd]. intros i Hi.
      destruct (Nat.ltb_spec i (length dims)); [|lia].
      apply (f_equal (fun v => vget v i)) in C. unfold wrap in C.
      rewrite !(vget_map_seq (fun i => vget _ i mod (vget high i + 1))) in C by lia.
      pose proof (high0 cut delta _ _ (Hcuts i Hi) (Hdims i Hi) Hdelta (fun x Hx => w1 i x Hi Hx)) as H0.
      rewrite Zminus_mod, C, Z.sub_diag. apply Z.mod_0_l. lia.
  Qed.
End Acc.
