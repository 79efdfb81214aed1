(** Proofs about views. *)
From Verif Require Import Vec GridSpec RangeModel BoxFacts RangeProofs StorageModel GridModel GridOpSpec GridProofs
  BoundaryModel BoundarySpec BoundaryProofs.

Lemma in_boxb_iff lo hi p : in_boxb lo hi p = true <-> in_box lo hi p.
Proof.
  revert hi p. induction lo as [|l lo IH]; intros [|h hi] [|x p]; simpl; try (split; [discriminate|tauto]); [tauto|].
  rewrite !andb_true_iff, !Z.leb_le, IH. tauto.
Qed.

Lemma run_check_in c lo hi p : in_box lo hi p -> run_check c p lo hi = Some p.
Proof.
  intros H. destruct c; cbn [run_check].
  - reflexivity.
  - pose proof (in_box_length _ _ _ H) as [L1 L2]. apply (assert_check_spec p lo hi); auto; lia.
  - pose proof (in_box_length _ _ _ H) as [L1 L2].
    assert (Ok : box_ok lo hi).
    { apply box_ok_vget. split; [exact L2|]. intros i Hi. apply in_box_vget in H. destruct H as (_ & _ & H).
      specialize (H i Hi). lia. }
    destruct (debug_check_spec (mkDbg false 0 []) p lo hi ltac:(lia) Ok) as (pc & d' & -> & _ & Hp & _).
    destruct (Hp H) as [-> _]. reflexivity.
Qed.

Section Sub.
  Context {V : Type}.
  Variables cv cb : vcheck.

  Lemma sub_index_in s p : in_box (sg_lo s) (sg_hi s) p -> sub_index cv cb s p = Some p.
  Proof. intros H. unfold sub_index. rewrite !run_check_in by exact H. reflexivity. Qed.

  (** Fuel needed: the largest range the view has during the history. *)
  Fixpoint sub_fuel (os : list (vop V)) (lo hi : vec) : nat :=
    match os with
    | [] => O
    | VFill _ :: os' => Nat.max (Z.to_nat (box_size lo hi)) (sub_fuel os' lo hi)
    | VResize lo' hi' :: os' => sub_fuel os' lo' hi'
    | _ :: os' => sub_fuel os' lo hi
    end.

  Lemma rep_ext (g : grid) (h : heap V) m m' : (forall p, m p = m' p) -> represents g h m -> represents g h m'.
  Proof. intros E [A B]. split; [exact A|]. intros p Hp. rewrite B by exact Hp. rewrite E. reflexivity. Qed.

  Theorem view_history fuel : forall os g lo hi dims (h : heap V) m,
    represents g h m -> view_range g lo hi -> vlegal g os lo hi -> (sub_fuel os lo hi <= fuel)%nat ->
    exists s' h', sub_run cv cb fuel os (mkSub g lo hi dims) h = Some (Some (s', h', snd (vspec_run os (m, (lo, hi))))) /\
      represents g h' (fst (fst (vspec_run os (m, (lo, hi))))) /\
      (sg_lo s', sg_hi s') = snd (fst (vspec_run os (m, (lo, hi)))) /\
      (forall b, b <> g_block g -> h' b = h b).
  Proof.
    induction os as [|o os IH]; intros g lo hi dims h m Hr [Ok Ins] Hl Hf.
    - exists (mkSub g lo hi dims), h. simpl. auto.
    - destruct o as [p|p v|v|lo' hi']; cbn [vlegal sub_fuel sub_run vspec_run vspec_step] in *.
      + destruct Hl as [Hp Hl]. destruct (IH g lo hi dims h m Hr (conj Ok Ins) Hl Hf) as (s' & h' & E & A & B & C).
        exists s', h'. unfold sub_read. rewrite sub_index_in by exact Hp. cbn [sg_base].
        rewrite (proj2 Hr p (Ins p Hp)), E. destruct (vspec_run os (m, (lo, hi))) as [s2 o2]. cbn [fst snd] in *. auto.
      + destruct Hl as [Hp Hl]. unfold sub_write. rewrite sub_index_in by exact Hp. cbn [sg_base].
        destruct (rep_write g h m p v Hr (Ins p Hp)) as (h1 & -> & Hr1 & F1).
        destruct (IH g lo hi dims h1 _ Hr1 (conj Ok Ins) Hl Hf) as (s' & h' & E & A & B & C).
        exists s', h'. rewrite E. destruct (vspec_run os _) as [s2 o2]. cbn [fst snd app] in *.
        split; [reflexivity|]. split; [exact A|]. split; [exact B|]. intros b Hb. rewrite C by exact Hb. apply F1, Hb.
      + unfold sub_fill. cbn [sg_lo sg_hi sg_base]. rewrite range_visits_box by (auto; lia).
        destruct (write_cells_spec g v (box lo hi) h m Hr) as (h1 & m1 & -> & Hr1 & A1 & B1 & F1).
        { intros p Hp. apply Ins, box_In, Hp. }
        apply (rep_ext g h1 m1 (fun q => if in_boxb lo hi q then v else m q)) in Hr1.
        * destruct (IH g lo hi dims h1 _ Hr1 (conj Ok Ins) Hl ltac:(lia)) as (s' & h' & E & A & B & C).
          exists s', h'. rewrite E. destruct (vspec_run os _) as [s2 o2]. cbn [fst snd app] in *.
          split; [reflexivity|]. split; [exact A|]. split; [exact B|]. intros b Hb. rewrite C by exact Hb. apply F1, Hb.
        * intros p. destruct (in_boxb lo hi p) eqn:E.
          -- apply A1, box_In, in_boxb_iff, E.
          -- apply B1. rewrite box_In, <- in_boxb_iff, E. discriminate.
      + destruct Hl as [Hv Hl].
        change (sub_resize (mkSub g lo hi dims) lo' hi') with (mkSub g lo' hi' dims).
        destruct (IH g lo' hi' dims h m Hr Hv Hl Hf) as (s' & h' & E & A & B & C).
        exists s', h'. rewrite E. destruct (vspec_run os _) as [s2 o2]. cbn [fst snd app] in *. auto.
  Qed.

  (** Checked views never touch a cell outside their range, whatever index is given. *)
  Lemma run_check_out c lo hi p q : box_ok lo hi -> length p = length lo -> run_check c p lo hi = Some q ->
    c = CkNone \/ in_box lo hi q.
  Proof.
    intros Ok L E. destruct c; cbn [run_check] in E; [left; reflexivity| |]; right.
    - pose proof (box_ok_length _ _ Ok) as L2.
      destruct (assert_check_spec p lo hi) as [A B]; [lia|lia|].
      destruct (in_boxb lo hi p) eqn:Eb.
      + apply in_boxb_iff in Eb. rewrite A in E by exact Eb. congruence.
      + rewrite B in E; [discriminate|]. intros K. apply in_boxb_iff in K. congruence.
    - destruct (debug_check_spec (mkDbg false 0 []) p lo hi ltac:(lia) Ok) as (pc & d' & Ed & Hin & _).
      rewrite Ed in E. cbn [fst] in E. injection E as <-. exact Hin.
  Qed.

  Theorem checked_view_confined g lo hi dims p v (h : heap V) : cv <> CkNone \/ cb <> CkNone ->
    grid_wf g h -> view_range g lo hi -> length p = length lo ->
    match sub_write cv cb (mkSub g lo hi dims) h p v with
    | None => True
    | Some h' => (forall q, in_box (g_lo g) (g_hi g) q -> ~ in_box lo hi q -> grid_read g h' q = grid_read g h q) /\
                 (forall b, b <> g_block g -> h' b = h b)
    end /\
    (cv <> CkAssert -> cb <> CkAssert -> exists h', sub_write cv cb (mkSub g lo hi dims) h p v = Some h').
  Proof.
    intros Hc Hw [Ok Ins] L. unfold sub_write. cbn [sg_base].
    destruct (sub_index cv cb _ p) as [q|] eqn:E.
    - assert (Hq : in_box lo hi q).
      { unfold sub_index in E. cbn [sg_lo sg_hi] in E. destruct (run_check cv p lo hi) as [r|] eqn:E1; [|discriminate].
        apply run_check_out in E1 as E1'; [|exact Ok|exact L].
        destruct E1' as [->|Hr].
        - cbn [run_check] in E1. injection E1 as <-. unfold noarg_check in E.
          apply run_check_out in E; [|exact Ok|exact L]. destruct E as [->|E]; [|exact E]. destruct Hc; congruence.
        - rewrite run_check_in in E by exact Hr. congruence. }
      destruct (grid_write_ok g h q v Hw (Ins q Hq)) as (h' & -> & _ & _ & F & R).
      split.
      + split; [|exact F]. intros r Hr Nr. rewrite R by exact Hr. rewrite veqb_neq; [reflexivity|]. congruence.
      + intros _ _. eexists. reflexivity.
    - split; [exact I|]. intros N1 N2. exfalso. unfold sub_index in E. cbn [sg_lo sg_hi] in E.
      destruct cv, cb; cbn [run_check] in E; try discriminate; congruence.
  Qed.

  (** ** Arithmetic between views *)

  Lemma inc_in_box lo hi p : box_ok lo hi -> in_box lo hi p -> in_box lo hi (fst (inc lo hi p)).
  Proof.
    revert hi p. induction lo as [|l lo IH]; intros [|h hi] [|x p]; cbn [in_box box_ok inc]; try tauto.
    intros [Ho Ok] [Hx Hp]. specialize (IH hi p Ok Hp). destruct (inc lo hi p) as [q c]. cbn [fst] in IH.
    destruct c.
    - destruct (Z.gtb_spec (x + 1) h); cbn [fst in_box]; (split; [lia|exact IH]).
    - cbn [fst in_box]. split; [lia|exact IH].
  Qed.

  Lemma pair_loop_dest n : forall r1 lo hi i1 p e, box_ok lo hi -> in_box lo hi p ->
    match pair_loop n r1 (mkRange lo hi) i1 (mkIter p e) with
    | None => range_loop n r1 i1 = None
    | Some l => range_loop n r1 i1 = Some (map fst l) /\ Forall (fun x => in_box lo hi (snd x)) l
    end.
  Proof.
    induction n as [|n IH]; intros r1 lo hi i1 p e Ok Hp; cbn [pair_loop range_loop].
    - destruct (iter_eqb _ _); [split; [reflexivity|constructor]|reflexivity].
    - destruct (iter_eqb _ _); [split; [reflexivity|constructor]|].
      rewrite (iter_incr_inc lo hi p e) by (try apply box_ok_length, Ok; apply in_box_length in Hp; apply Hp).
      pose proof (inc_in_box lo hi p Ok Hp) as Hq. destruct (inc lo hi p) as [q c]. cbn [fst] in Hq.
      specialize (IH r1 lo hi (iter_incr r1 i1) q (c || e)%bool Ok Hq).
      destruct (pair_loop n _ _ _ _) as [l|].
      + destruct IH as [-> IH]. split; [reflexivity|]. constructor; [exact Hp|exact IH].
      + rewrite IH. reflexivity.
  Qed.

  Variable op : V -> V -> V.

  Lemma iop_cells_frame gd gs lo hi : inside_grid gd lo hi -> forall l (h : heap V),
    grid_wf gd h -> grid_wf gs h -> Forall (fun x => in_box (g_lo gs) (g_hi gs) (fst x) /\ in_box lo hi (snd x)) l ->
    exists h', iop_cells op gd gs l h = Some h' /\ grid_wf gd h' /\ grid_wf gs h' /\
      (forall q, in_box (g_lo gd) (g_hi gd) q -> ~ in_box lo hi q -> grid_read gd h' q = grid_read gd h q) /\
      (forall b, b <> g_block gd -> h' b = h b).
  Proof.
    intros Ins. induction l as [|[s d] l IH]; intros h Hd Hs Hl; cbn [iop_cells].
    - exists h. auto.
    - inversion Hl as [|? ? [H1 H2] Hl']; subst. cbn [fst snd] in *.
      destruct (grid_read_ok gs h s Hs H1) as [y ->]. destruct (grid_read_ok gd h d Hd (Ins d H2)) as [x ->].
      destruct (grid_write_ok gd h d (op x y) Hd (Ins d H2)) as (h1 & -> & Hd1 & Len & F1 & R1).
      destruct (IH h1 Hd1) as (h' & E & A & B & C & D).
      + apply (grid_wf_ext gs h h1); [apply Len|exact Hs].
      + exact Hl'.
      + exists h'. split; [exact E|]. split; [exact A|]. split; [exact B|]. split.
        * intros q Hq Nq. rewrite C by assumption. rewrite R1 by exact Hq. rewrite veqb_neq; [reflexivity|]. congruence.
        * intros b Hb. rewrite D by exact Hb. apply F1, Hb.
  Qed.

  Theorem sub_iop_confined gd gs lod hid los his dd ds (h : heap V) fuel :
    grid_wf gd h -> grid_wf gs h -> view_range gd lod hid -> view_range gs los his ->
    (Z.to_nat (box_size los his) <= fuel)%nat ->
    exists h', sub_iop op fuel (mkSub gd lod hid dd) (mkSub gs los his ds) h = Some (Some h') /\
      (forall q, in_box (g_lo gd) (g_hi gd) q -> ~ in_box lod hid q -> grid_read gd h' q = grid_read gd h q) /\
      (forall b, b <> g_block gd -> h' b = h b).
  Proof.
    intros Hd Hs [Okd Insd] [Oks Inss] Hf. unfold sub_iop, pair_visits. cbn [sg_lo sg_hi sg_base].
    pose proof (pair_loop_dest fuel (mkRange los his) lod hid (range_begin (mkRange los his)) lod false Okd
                  (box_ok_in_box_lo _ _ Okd)) as P.
    change (range_loop fuel (mkRange los his) (range_begin (mkRange los his))) with (range_visits fuel (mkRange los his)) in P.
    rewrite range_visits_box in P by assumption.
    change (range_begin (mkRange lod hid)) with (mkIter lod false).
    destruct (pair_loop _ _ _ _ _) as [l|]; [|discriminate]. destruct P as [P1 P2]. injection P1 as P1.
    destruct (iop_cells_frame gd gs lod hid Insd l h Hd Hs) as (h' & -> & _ & _ & A & B).
    - apply Forall_forall. intros x Hx. split; [|rewrite Forall_forall in P2; apply P2, Hx].
      apply Inss, box_In. rewrite P1. apply in_map, Hx.
    - exists h'. auto.
  Qed.

  Lemma iop_cells_exact gd gs (f : vec -> vec) : g_block gd <> g_block gs -> forall l (h : heap V) md ms,
    represents gd h md -> represents gs h ms -> NoDup l ->
    (forall p q, In p l -> In q l -> f p = f q -> p = q) ->
    (forall p, In p l -> in_box (g_lo gs) (g_hi gs) p /\ in_box (g_lo gd) (g_hi gd) (f p)) ->
    exists h' md', iop_cells op gd gs (map (fun p => (p, f p)) l) h = Some h' /\ represents gd h' md' /\
      (forall p, In p l -> md' (f p) = op (md (f p)) (ms p)) /\
      (forall q, (forall p, In p l -> q <> f p) -> md' q = md q) /\
      (forall b, b <> g_block gd -> h' b = h b).
  Proof.
    intros Nb. induction l as [|p l IH]; intros h md ms Hd Hs Nd Inj Hl; cbn [map iop_cells].
    - exists h, md. split; [reflexivity|]. split; [exact Hd|]. split; [intros p []|]. auto.
    - inversion Nd as [|? ? Np Nd']; subst. destruct (Hl p (or_introl eq_refl)) as (Hp & Hfp).
      rewrite (proj2 Hs p Hp), (proj2 Hd (f p) Hfp).
      destruct (rep_write gd h md (f p) (op (md (f p)) (ms p)) Hd Hfp) as (h1 & -> & Hd1 & F1).
      assert (Hs1 : represents gs h1 ms).
      { destruct Hs as [W R]. split.
        - apply (grid_wf_ext gs h h1); [rewrite F1; auto|exact W].
        - intros q Hq. unfold grid_read, read_elem. rewrite F1 by auto. apply (R q Hq). }
      destruct (IH h1 _ ms Hd1 Hs1 Nd') as (h' & md' & E & A & B & C & D).
      { intros a b Ha Hb. apply Inj; right; assumption. }
      { intros q Hq. apply Hl. right; exact Hq. }
      exists h', md'. split; [exact E|]. split; [exact A|]. split; [|split].
      + intros q [<-|Hq].
        * rewrite C; [rewrite veqb_refl; reflexivity|]. intros r Hr E'. apply Inj in E'; [subst; contradiction| |]; simpl; auto.
        * rewrite B by exact Hq. rewrite veqb_neq; [reflexivity|]. intros E'. apply Inj in E'; [subst; contradiction| |]; simpl; auto.
      + intros q Hq. rewrite C; [rewrite veqb_neq; [reflexivity|]|].
        * apply Hq. left; reflexivity.
        * intros r Hr. apply Hq. right; exact Hr.
      + intros b Hb. rewrite D by exact Hb. apply F1, Hb.
  Qed.
End Sub.

Lemma vadd_len a b : length a = length b -> length (vadd a b) = length a.
Proof. apply vmap2_len. Qed.
Lemma vget_vadd a b i : length a = length b -> (i < length a)%nat -> vget (vadd a b) i = vget a i + vget b i.
Proof. apply vget_vmap2. Qed.
Lemma vadd_inj p q sh : length p = length sh -> length q = length sh -> vadd p sh = vadd q sh -> p = q.
Proof.
  intros L1 L2 E. apply vec_ext; [congruence|]. intros i Hi. apply (f_equal (fun v => vget v i)) in E.
  rewrite !vget_vadd in E by congruence. lia.
Qed.

(** Views of equal shape on different data: cell by cell, relative to the low corners. *)
Theorem sub_iop_exact {V} (op : V -> V -> V) gd gs los his sh dd ds (h : heap V) md ms fuel :
  g_block gd <> g_block gs -> represents gd h md -> represents gs h ms -> length sh = length los ->
  view_range gs los his -> inside_grid gd (vadd los sh) (vadd his sh) ->
  (Z.to_nat (box_size los his) <= fuel)%nat ->
  exists h' md', sub_iop op fuel (mkSub gd (vadd los sh) (vadd his sh) dd) (mkSub gs los his ds) h = Some (Some h') /\
    represents gd h' md' /\
    (forall p, in_box los his p -> md' (vadd p sh) = op (md (vadd p sh)) (ms p)) /\
    (forall q, ~ in_box (vadd los sh) (vadd his sh) q -> md' q = md q) /\
    (forall b, b <> g_block gd -> h' b = h b).
Proof.
  intros Nb Hd Hs Lsh [Ok Inss] Insd Hf. unfold sub_iop. cbn [sg_lo sg_hi sg_base].
  rewrite (pair_visits_shift los his _ _ sh) by auto. pose proof (box_ok_length _ _ Ok) as L.
  assert (Sh : forall p, in_box los his p -> in_box (vadd los sh) (vadd his sh) (vadd p sh)).
  { intros p Hp. apply in_box_vget in Hp. destruct Hp as (_ & Lp & Hp). apply in_box_vget.
    rewrite !vadd_len by congruence. repeat split; try congruence; rewrite !vget_vadd by congruence; specialize (Hp i H); lia. }
  destruct (iop_cells_exact op gd gs (fun p => vadd p sh) Nb (box los his) h md ms Hd Hs (box_NoDup _ _))
    as (h' & md' & -> & A & B & C & D).
  - intros p q Hp Hq. apply box_In, in_box_length in Hp. apply box_In, in_box_length in Hq. apply vadd_inj; lia.
  - intros p Hp. apply box_In in Hp. split; [apply Inss, Hp|apply Insd, Sh, Hp].
  - exists h', md'. split; [reflexivity|]. split; [exact A|]. split; [|split; [|exact D]].
    + intros p Hp. apply B, box_In, Hp.
    + intros q Hq. apply C. intros p Hp E. apply Hq. rewrite E. apply Sh, box_In, Hp.
Qed.
