(** Whatever the parser accepts is a sentence, it always ends, and the tokens it has read without
    an error are the beginning of a sentence. *)
From Coq Require Import ZArith List Bool Lia.
From Verif Require Import ParseModel ParseSpec ParseTableProofs ParseProofs.
Import ListNotations.
Local Open Scope Z_scope.

Section P.
  Context {V St E : Type}.
  Variable nv : V.
  Variable act : nat -> list V -> St -> E + (V * St).
  Notation ends := (ends nv act).
  Notation e0 := (mkEntry 0 0 nv).

  (** A stack whose entries stand for derivation trees [ts] (the bottom one first), the actions of
      which lead from the state [s0] to [s]. *)
  Inductive built (s0 : St) : list (@entry V) -> list (sym * tree V) -> St -> Prop :=
  | built_start : built s0 [e0] [] s0
  | built_push : forall e σ ts s X t v s' q,
      built s0 (e :: σ) ts s -> trans (stateno e) X = Some q -> derives X t -> token_list (yield t) ->
      perform act t s = inr (v, s') ->
      built s0 (mkEntry q (scode X) v :: e :: σ) (ts ++ [(X, t)]) s'.
  Definition read (ts : list (sym * tree V)) : list (Z * V) := flat_map (fun x => yield (snd x)) ts.

  Lemma built_valid : forall s0 σ ts s, built s0 σ ts s -> exists e σ', σ = e :: σ' /\ valid (stateno e) /\ length ts = length σ' /\ (stateno e = 0 -> σ' = []).
  Proof.
    intros s0 σ ts s H. induction H as [|e σ ts s X t v s' q Hb IH Ht Hd Hy Hp].
    - exists e0, []. split; [reflexivity|]. split; [exact valid_start|]. split; [reflexivity|]. intros _. reflexivity.
    - destruct IH as [e1 [σ1 [E1 [V1 [L1 _]]]]]. injection E1 as -> ->. destruct (backward_of _ _ _ V1 Ht) as [Vq [Nq _]].
      exists (mkEntry q (scode X) v), (e1 :: σ1). split; [reflexivity|]. split; [exact Vq|]. split.
      + rewrite app_length, L1. cbn. lia.
      + cbn. intros Hq. exfalso. exact (Nq Hq).
  Qed.

  (** The last [d] entries of the stack, given an item of the top state. *)
  Lemma built_split : forall d s0 e σ ts s r las A rhs,
    built s0 (e :: σ) ts s -> item (stateno e) r d las -> nth_error grammar r = Some (A, rhs) ->
    exists es eb σb tsb kids vs sb,
      e :: σ = es ++ eb :: σb /\ ts = tsb ++ combine (firstn d rhs) kids /\ built s0 (eb :: σb) tsb sb /\
      length es = d /\ length kids = d /\ map (@minor V) es = rev vs /\ derives_all (firstn d rhs) kids /\ token_list (flat_map yield kids) /\
      perform_list act kids sb = inr (vs, s) /\ exists las', item (stateno eb) r 0 las'.
  Proof.
    induction d as [|d IH]; intros s0 e σ ts s r las A rhs Hb Hi Hg.
    - exists [], e, σ, ts, [], [], s. cbn. rewrite app_nil_r. split; [reflexivity|]. split; [reflexivity|]. split; [exact Hb|].
      split; [reflexivity|]. split; [reflexivity|]. split; [reflexivity|]. split; [constructor|]. split; [constructor|]. split; [reflexivity|]. exists las. exact Hi.
    - inversion Hb as [|e1 σ1 ts1 s1 X t v s1' q Hb1 Ht Hd Hy Hp]; subst.
      + exfalso. destruct (item_rule _ _ _ _ valid_start Hi) as [A' [rhs' [Hg' Hle]]].
        assert (C : forallb (fun x => Nat.eqb (snd (fst x)) 0) (items 0) = true) by (vm_compute; reflexivity).
        rewrite forallb_forall in C. specialize (C _ Hi). discriminate C.
      + destruct (built_valid _ _ _ _ Hb1) as [e2 [σ2 [E2 [V2 _]]]]. injection E2 as -> ->.
        destruct (backward_of _ _ _ V2 Ht) as [_ [_ B]]. destruct (B r d las Hi) as [A' [rhs' [las' [Hg' [Hn Hi']]]]].
        rewrite Hg in Hg'. injection Hg' as <- <-.
        destruct (IH s0 e2 σ2 ts1 s1 r las' A rhs Hb1 Hi' Hg) as [es [eb [σb [tsb [kids [vs [sb [E1 [E2 [Hbb [L1 [L2 [M [Da [Tl [Pf I0]]]]]]]]]]]]]]]].
        assert (Ef : firstn (S d) rhs = firstn d rhs ++ [X]).
        { clear -Hn. revert d Hn. induction rhs as [|y rhs IH]; intros d Hn; [destruct d; discriminate Hn|].
          destruct d as [|d]; cbn in Hn; [injection Hn as ->; reflexivity|]. cbn [firstn app]. f_equal. apply (IH d Hn). }
        assert (Lf : length (firstn d rhs) = d).
        { apply firstn_length_le. apply Nat.lt_le_incl. apply nth_error_Some. rewrite Hn. discriminate. }
        exists (mkEntry q (scode X) v :: es), eb, σb, tsb, (kids ++ [t]), (vs ++ [v]), sb.
        split; [cbn [app]; rewrite E1; reflexivity|].
        split.
        { rewrite E2, Ef, <- app_assoc. f_equal.
          assert (G : forall (l1 : list sym) (l2 : list (tree V)) a b, length l1 = length l2 -> combine (l1 ++ [a]) (l2 ++ [b]) = combine l1 l2 ++ [(a, b)]).
          { clear. induction l1 as [|x l1 IH]; intros [|y l2] a b H; try discriminate H; [reflexivity|]. cbn. f_equal. apply IH. injection H as H. exact H. }
          symmetry. apply G. congruence. }
        split; [exact Hbb|]. split; [cbn; congruence|]. split; [rewrite app_length; cbn; lia|].
        split; [cbn; rewrite M, rev_app_distr; reflexivity|].
        split.
        { rewrite Ef. clear -Da Hd. induction Da; cbn; [constructor; [exact Hd|constructor]|]. constructor; assumption. }
        split. { rewrite flat_map_app. apply Forall_app. split; [exact Tl|]. cbn. rewrite app_nil_r. exact Hy. }
        split; [|exact I0].
        { clear -Pf Hp. revert sb vs Pf. induction kids as [|k kids IH]; intros sb vs Pf; cbn in *.
          - injection Pf as <- ->. rewrite Hp. reflexivity.
          - destruct (perform act k sb) as [x|[v1 s2]]; [discriminate Pf|].
            destruct (perform_list act kids s2) as [x|[vs1 s3]] eqn:Ek; [discriminate Pf|]. injection Pf as <- ->.
            rewrite (IH _ _ Ek). reflexivity. }
  Qed.

  Definition rank (c : Z) : Z :=
    if c <? 23 then 0 else nth (Z.to_nat (c - 23)) [4; 3; 2; 1; 3; 1; 1; 2; 6; 5; 5; 4; 3; 2; 3; 7; 1] 0.
  Lemma rank_bound : forall X, 0 <= rank (scode X) <= 7.
  Proof.
    intros X. unfold rank. destruct (scode X <? 23); [lia|]. generalize (Z.to_nat (scode X - 23)). intros n.
    do 17 (destruct n as [|n]; [cbn; lia|]). destruct n; cbn; lia.
  Qed.
  Lemma unit_rank : forall r A X, nth_error grammar r = Some (A, [X]) -> X <> T ERROR -> (forall c, X = T c -> 0 < c < ERROR) -> rank (scode X) < rank (ncode A).
  Proof.
    intros r A X H HX HT.
    do 48 (destruct r as [|r];
      [cbn in H; try discriminate H; injection H as <- <-;
       first [reflexivity | exfalso; apply HX; reflexivity]|]).
    destruct r; discriminate H.
  Qed.
  Lemma no_deck_in_rhs : forall r A rhs d, nth_error grammar r = Some (A, rhs) -> nth_error rhs d <> Some (N Deck).
  Proof.
    intros r A rhs d Hg Hd.
    assert (C : forallb (fun x => forallb (fun X => negb (sym_eqb X (N Deck))) (snd x)) grammar = true) by (vm_compute; reflexivity).
    rewrite forallb_forall in C. specialize (C _ (nth_error_In _ _ Hg)). cbn in C. rewrite forallb_forall in C.
    specialize (C _ (nth_error_In _ _ Hd)). discriminate C.
  Qed.
  Lemma deck_rule : forall r rhs, nth_error grammar r = Some (Deck, rhs) -> r = 0%nat.
  Proof.
    intros r rhs H. do 48 (destruct r as [|r]; [cbn in H; try discriminate H; reflexivity|]). destruct r; discriminate H.
  Qed.
  Lemma item00 : forall q las, valid q -> item q 0 0 las -> q = 0.
  Proof.
    intros q las Hv Hi. apply (item_cases q (fun r d => r = 0%nat -> d = 0%nat -> q = 0)) with (r := 0%nat) (d := 0%nat) (las := las); try reflexivity; try assumption.
    - intros r d l _ _ H. discriminate H.
    - intros H _ _. exact H.
    - intros r A rhs r' d' las' A' rhs' Hg _ _ Hg' Hd -> _. cbn in Hg. injection Hg as <- _. exfalso. exact (no_deck_in_rhs _ _ _ _ Hg' Hd).
  Qed.
  Lemma before_lhs : forall q r las A rhs, valid q -> item q r 0 las -> nth_error grammar r = Some (A, rhs) -> r <> 0%nat ->
    exists r' d' las' A' rhs', item q r' d' las' /\ nth_error grammar r' = Some (A', rhs') /\ nth_error rhs' d' = Some (N A).
  Proof.
    intros q r las A rhs Hv Hi Hg Hr.
    apply (item_cases q (fun r d => d = 0%nat -> r <> 0%nat -> forall A rhs, nth_error grammar r = Some (A, rhs) ->
      exists r' d' las' A' rhs', item q r' d' las' /\ nth_error grammar r' = Some (A', rhs') /\ nth_error rhs' d' = Some (N A)))
      with (r := r) (d := 0%nat) (las := las) (rhs := rhs); try reflexivity; try assumption.
    - intros r1 d l _ H. discriminate H.
    - intros _ _ H. exfalso. apply H. reflexivity.
    - intros r1 A1 rhs1 r' d' las' A' rhs' Hg1 Hi' _ Hg' Hd _ _ A2 rhs2 Hg2. rewrite Hg1 in Hg2. injection Hg2 as <- <-.
      exists r', d', las', A', rhs'. split; [exact Hi'|]. split; assumption.
  Qed.

  Lemma read_app : forall a b, read (a ++ b) = read a ++ read b.
  Proof. intros. apply flat_map_app. Qed.
  Lemma read_combine : forall (Xs : list sym) kids, length Xs = length kids -> read (combine Xs kids) = flat_map yield kids.
  Proof.
    induction Xs as [|X Xs IH]; intros [|k kids] H; try discriminate H; [reflexivity|]. cbn. f_equal. apply IH. injection H as H. exact H.
  Qed.
  Lemma derives_all_length : forall Xs (kids : list (tree V)), derives_all Xs kids -> length Xs = length kids.
  Proof. intros Xs kids H. induction H; cbn; congruence. Qed.
  Lemma built_tokens : forall s0 σ ts s, built s0 σ ts s -> token_list (read ts).
  Proof.
    intros s0 σ ts s H. induction H; [constructor|]. rewrite read_app. apply Forall_app. split; [assumption|]. cbn. rewrite app_nil_r. assumption.
  Qed.

  (** ** What has been read can be completed to a sentence *)
  Definition canon_value (A : nonterm) : tree V :=
    let value := Node 42 [Leaf 17 nv] in
    let atomic := Node 37 [value] in
    let exp := Node 30 [atomic] in
    let term := Node 28 [exp] in
    let expression := Node 19 [Node 25 [term]] in
    let ident := Leaf 10 nv in
    let declaration := Node 13 [ident] in
    let statement := Node 7 [Leaf 9 nv] in
    match A with
    | Deck => Node 0 [Node 2 [statement]]
    | StatementList => Node 2 [statement]
    | Statement => statement
    | TypeDecl => Node 45 [Leaf 19 nv]
    | DeclList => Node 12 [declaration]
    | Assignment => Node 16 [ident; Leaf 13 nv; expression]
    | StartBlock => Node 10 [ident; Leaf 11 nv]
    | Declaration => declaration
    | Expression => expression
    | SignedTerm => Node 25 [term]
    | UnsignedExpression => Node 22 [term]
    | TermExpression => term
    | ExpExpression => exp
    | AtomicExpression => atomic
    | SignedAtomic => Node 33 [atomic]
    | ExpressionList => Node 39 [expression]
    | Value => value
    end.
  Lemma canon_ok : forall A, derives (N A) (canon_value A) /\ token_list (yield (canon_value A)).
  Proof.
    intros A. split.
    - destruct A; cbn [canon_value]; repeat (first [apply derives_token | eapply derives_rule; [reflexivity|] | apply derives_none | apply derives_some]).
    - destruct A; cbn; repeat constructor.
  Qed.
  Lemma grammar_tokens : forall r A rhs c, nth_error grammar r = Some (A, rhs) -> In (T c) rhs -> rhs <> [T ERROR] -> 0 < c < ERROR.
  Proof.
    intros r A rhs c Hg Hin Hne.
    do 48 (destruct r as [|r]; [cbn in Hg; injection Hg as <- <-; cbn in Hin;
      repeat (destruct Hin as [Hin|Hin]; [first [discriminate Hin | injection Hin as <-; first [split; reflexivity | exfalso; apply Hne; reflexivity]]|]); destruct Hin|]).
    destruct r; discriminate Hg.
  Qed.
  Lemma canon_all : forall Xs, (forall c, In (T c) Xs -> 0 < c < ERROR) ->
    exists kids : list (tree V), derives_all Xs kids /\ token_list (flat_map yield kids).
  Proof.
    induction Xs as [|X Xs IH]; intros H; [exists []; split; constructor|].
    destruct IH as [kids [D1 T1]]; [intros c Hc; apply H; right; exact Hc|]. destruct X as [c|A].
    - exists (Leaf c nv :: kids). split; [constructor; [constructor|exact D1]|]. constructor; [apply (H c); left; reflexivity|exact T1].
    - destruct (canon_ok A) as [D2 T2]. exists (canon_value A :: kids). split; [constructor; assumption|]. apply Forall_app. split; assumption.
  Qed.

  Lemma pending_length_mut : (forall X (t : tree V), derives X t -> length (pending t) = length (yield t)) /\
    (forall Xs (kids : list (tree V)), derives_all Xs kids -> forall i, length (pending_list i kids) = length (flat_map yield kids)).
  Proof.
    apply (derives_mutind V (fun _ t _ => length (pending t) = length (yield t))
       (fun _ kids _ => forall i, length (pending_list i kids) = length (flat_map yield kids))).
    - reflexivity.
    - intros r A rhs kids _ _ IH. rewrite pending_node. exact (IH 0%nat).
    - reflexivity.
    - intros X rhs t kids _ IH1 _ IH2 i. cbn [pending_list flat_map]. rewrite !app_length, map_length. rewrite IH1, IH2. reflexivity.
  Qed.

  Lemma pending_index_mut : (forall X (t : tree V), derives X t -> forall k, (nth k (pending t) 0 <= S k)%nat) /\
    (forall Xs (kids : list (tree V)), derives_all Xs kids -> forall i k, (nth k (pending_list i kids) 0 <= i + S k)%nat).
  Proof.
    apply (derives_mutind V (fun _ t _ => forall k, (nth k (pending t) 0 <= S k)%nat)
       (fun _ kids _ => forall i k, (nth k (pending_list i kids) 0 <= i + S k)%nat)).
    - intros c v k. destruct k as [|[|k]]; cbn; lia.
    - intros r A rhs kids _ _ IH k. rewrite pending_node. exact (IH 0%nat k).
    - intros i k. destruct k; cbn; lia.
    - intros X rhs t kids Hd IH1 _ IH2 i k. cbn [pending_list]. destruct (Nat.lt_ge_cases k (length (pending t))) as [H|H].
      + rewrite app_nth1 by (rewrite map_length; exact H). rewrite (nth_indep _ 0%nat (i + 0)%nat) by (rewrite map_length; exact H).
        rewrite (map_nth (Nat.add i)). specialize (IH1 k). lia.
      + rewrite app_nth2 by (rewrite map_length; exact H). rewrite map_length. specialize (IH2 (S i) (k - length (pending t))%nat).
        assert (length (pending t) <> 0)%nat; [|lia]. destruct (pending_first _ _ Hd) as [h [l Eh]]. rewrite Eh. discriminate.
  Qed.
  Lemma pending_index : forall (t : tree V) k, (exists X, derives X t) -> (nth k (pending t) 0 <= S k)%nat.
  Proof. intros t k [X H]. exact (proj1 pending_index_mut X t H k). Qed.

  Definition completes (s0 : St) (ts : list (sym * tree V)) (s : St) (kids : list (tree V)) : Prop :=
    exists t w pp pw, derives (N Deck) t /\ token_list (yield t) /\ yield t = read ts ++ flat_map yield kids ++ w /\
      pending t = pp ++ map (Nat.add (length ts)) (pending_list 0 kids) ++ pw /\ length pp = length (read ts) /\
      (forall x, perform_list act kids s = inl x -> perform act t s0 = inl x).

  Lemma parent_step : forall s0 ts s r A rhs kids r' d' A' rhs',
    nth_error grammar r = Some (A, rhs) -> derives_all rhs kids -> token_list (flat_map yield kids) ->
    nth_error grammar r' = Some (A', rhs') -> nth_error rhs' d' = Some (N A) ->
    (forall A rhs kids, nth_error grammar r' = Some (A, rhs) -> derives_all (skipn d' rhs) kids -> token_list (flat_map yield kids) -> completes s0 ts s kids) ->
    completes s0 ts s kids.
  Proof.
    intros s0 ts s r A rhs kids r' d' A' rhs' Hg Hd Hy Hg' Hn HP.
    assert (Es : skipn d' rhs' = N A :: skipn (S d') rhs').
    { clear -Hn. revert d' Hn. induction rhs' as [|y rhs IH]; intros d Hn; [destruct d; discriminate Hn|].
      destruct d as [|d]; cbn in *; [injection Hn as ->; reflexivity|]. apply (IH d Hn). }
    destruct (canon_all (skipn (S d') rhs')) as [more [D2 T2]].
    { intros c Hc. apply (grammar_tokens r' A' rhs' c Hg').
      - rewrite <- (firstn_skipn (S d') rhs'). apply in_or_app. right. exact Hc.
      - intros ->. destruct d' as [|d']; [discriminate Hn|]. destruct d'; discriminate Hn. }
    destruct (HP A' rhs' (Node r kids :: more) Hg') as [t' [w [pp [pw [D1 [T1 [Y1 [P1 [L1 F1]]]]]]]]].
    - rewrite Es. constructor; [econstructor; eassumption|exact D2].
    - apply Forall_app. split; assumption.
    - exists t', (flat_map yield more ++ w), pp, (map (Nat.add (length ts)) (pending_list 1 more) ++ pw).
      split; [exact D1|]. split; [exact T1|]. split; [rewrite Y1; cbn [flat_map yield]; rewrite <- !app_assoc; reflexivity|]. split; [|split; [exact L1|]].
      + rewrite P1. cbn [pending_list]. rewrite pending_node, map_app, <- !app_assoc. f_equal. f_equal. f_equal. apply map_id.
      + intros x Hx. apply F1. cbn [perform_list]. rewrite perform_node, Hx. reflexivity.
  Qed.

  Lemma completion : forall s0 σ ts s, built s0 σ ts s -> forall e σ', σ = e :: σ' ->
    forall r d las, item (stateno e) r d las ->
    forall A rhs kids, nth_error grammar r = Some (A, rhs) -> derives_all (skipn d rhs) kids -> token_list (flat_map yield kids) ->
    completes s0 ts s kids.
  Proof.
    intros s0 σ ts s Hb. induction Hb as [|e1 σ1 ts1 s1 X t v s1' q Hb1 IH Ht Hd Hy Hp]; intros e σ' Eσ.
    - injection Eσ as <- <-. cbn [stateno].
      apply (item_cases 0 (fun r d => forall A rhs kids, nth_error grammar r = Some (A, rhs) -> derives_all (skipn d rhs) kids -> token_list (flat_map yield kids) -> completes s0 [] s0 kids) valid_start).
      + intros r d las Hi. exfalso.
        assert (C : forallb (fun x => Nat.eqb (snd (fst x)) 0) (items 0) = true) by (vm_compute; reflexivity).
        rewrite forallb_forall in C. specialize (C _ Hi). discriminate C.
      + intros _ A rhs kids Hg Hd Hy. exists (Node 0 kids), [], [], [].
        assert (A = Deck) by (cbn in Hg; injection Hg as <- _; reflexivity). subst A.
        split; [econstructor; [exact Hg|exact Hd]|]. split; [exact Hy|]. split; [cbn; rewrite app_nil_r; reflexivity|]. split; [|split; [reflexivity|]].
        * rewrite pending_node. cbn [app length]. rewrite app_nil_r. symmetry. apply map_id.
        * intros x Hx. rewrite perform_node, Hx. reflexivity.
      + intros r A rhs r' d' las' A' rhs' Hg Hi' HP Hg' Hn A2 rhs2 kids Hg2 Hd Hy. rewrite Hg in Hg2. injection Hg2 as <- <-. cbn [skipn] in Hd.
        apply (parent_step _ _ _ _ _ _ _ _ _ _ _ Hg Hd Hy Hg' Hn HP).
    - injection Eσ as <- <-. destruct (built_valid _ _ _ _ Hb1) as [e2 [σ2 [E2 [V2 [L2 _]]]]]. injection E2 as <- <-.
      destruct (backward_of _ _ _ V2 Ht) as [Vq [Nq B]]. cbn [stateno].
      apply (item_cases q (fun r d => forall A rhs kids, nth_error grammar r = Some (A, rhs) -> derives_all (skipn d rhs) kids -> token_list (flat_map yield kids) -> completes s0 (ts1 ++ [(X, t)]) s1' kids) Vq).
      + intros r d las Hi A rhs kids Hg Hdk Hyk. destruct (B r d las Hi) as [A' [rhs' [las' [Hg' [Hn Hi']]]]].
        rewrite Hg in Hg'. injection Hg' as <- <-.
        assert (Es : skipn d rhs = X :: skipn (S d) rhs).
        { clear -Hn. revert d Hn. induction rhs as [|y rhs IH]; intros d Hn; [destruct d; discriminate Hn|].
          destruct d as [|d]; cbn in *; [injection Hn as ->; reflexivity|]. apply (IH d Hn). }
        destruct (IH e1 σ1 eq_refl r d las' Hi' A rhs (t :: kids) Hg) as [t' [w [pp [pw [D1 [T1 [Y1 [P1 [L1 F1]]]]]]]]].
        * rewrite Es. constructor; assumption.
        * apply Forall_app. split; assumption.
        * exists t', w, (pp ++ map (Nat.add (length ts1)) (pending t)), pw. split; [exact D1|]. split; [exact T1|]. split.
          -- rewrite Y1, read_app. cbn [read flat_map snd]. rewrite app_nil_r, <- !app_assoc. reflexivity.
          -- split.
             ++ rewrite P1. cbn [pending_list]. rewrite map_app, <- !app_assoc. f_equal. f_equal.
                ** rewrite map_map. apply map_ext. intros x. lia.
                ** f_equal. change 1%nat with (1 + 0)%nat. rewrite pending_list_shift, map_map. apply map_ext. intros x.
                   rewrite app_length. cbn. lia.
             ++ split.
                ** rewrite app_length, map_length, L1, read_app, app_length. f_equal. cbn. rewrite app_nil_r.
                   apply (proj1 pending_length_mut _ _ Hd).
                ** intros x Hx. apply F1. cbn [perform_list]. rewrite Hp, Hx. reflexivity.
      + intros Hq. exfalso. exact (Nq Hq).
      + intros r A rhs r' d' las' A' rhs' Hg Hi' HP Hg' Hn A2 rhs2 kids Hg2 Hdk Hyk. rewrite Hg in Hg2. injection Hg2 as <- <-. cbn [skipn] in Hdk.
        apply (parent_step _ _ _ _ _ _ _ _ _ _ _ Hg Hdk Hyk Hg' Hn HP).
  Qed.
  Definition mu (σ : list (@entry V)) : Z :=
    match σ with [] => 0 | e :: σ' => 10 * Z.of_nat (length σ') + (9 - rank (major e)) end.

  (** All reductions for a given next token. *)
  Lemma settle : forall n s0 e σ ts s depth c, built s0 (e :: σ) ts s -> (length (e :: σ) <= depth)%nat -> 0 <= c < ERROR -> mu (e :: σ) < Z.of_nat n ->
    exists e' σ' ts' s', built s0 (e' :: σ') ts' s' /\ read ts' = read ts /\ (length (e' :: σ') <= length (e :: σ))%nat /\ (e' = e \/ 23 <= major e') /\
      (forall depth' cnt rest r, (depth <= depth')%nat -> la rest = c -> r <> OutOfFuel ->
         ends depth' (mkParser (e' :: σ') cnt) rest s' r -> ends depth' (mkParser (e :: σ) cnt) rest s r) /\
      ((exists q, trans (stateno e') (T c) = Some q) \/
       find_shift_action (stateno e') c = YY_ERROR_ACTION \/
       (c = 0 /\ exists t v s'', derives (N Deck) t /\ yield t = read ts /\ perform act t s0 = inr (v, s'') /\
          forall depth' cnt, ends depth' (mkParser (e' :: σ') cnt) [] s' (Finished s'')) \/
       (exists x t w, derives (N Deck) t /\ token_list (yield t) /\ yield t = read ts ++ w /\ perform act t s0 = inl x /\
          forall depth' cnt rest, la rest = c -> ends depth' (mkParser (e' :: σ') cnt) rest s' (ActionError x))).
  Proof.
    induction n as [|n IH]; intros s0 e σ ts s depth c Hb Hl Hc Hmu.
    { exfalso. destruct Hb as [|e1 σ1 ts1 s1 X t v s1' q Hb1 Ht Hd Hy Hp]; unfold mu in Hmu; cbn [major] in Hmu.
      - change (rank 0) with 4 in Hmu || idtac. vm_compute in Hmu. discriminate Hmu.
      - pose proof (rank_bound X). lia. }
    destruct (built_valid _ _ _ _ Hb) as [e1 [σ1 [E1 [Hv [Hlen H0]]]]]. injection E1 as <- <-.
    destruct (action_cases _ _ Hv Hc) as [[q [Ha [Hq Hc0]]]|[[r [A [rhs [las [Ha [Hr [Hg [Hi Hr0]]]]]]]]|Ha]].
    - (* shift *)
      exists e, σ, ts, s. split; [exact Hb|]. split; [reflexivity|]. split; [lia|]. split; [left; reflexivity|]. split; [intros; assumption|].
      left. exists q. unfold trans. rewrite Ha. replace (0 <? c) with true by (symmetry; apply Z.ltb_lt; lia).
      replace (c <? ERROR) with true by (symmetry; apply Z.ltb_lt; lia). replace (q <? YYNSTATE) with true by (symmetry; apply Z.ltb_lt; lia). reflexivity.
    - (* reduce *)
      destruct (built_split _ _ _ _ _ _ _ _ _ _ Hb Hi Hg) as [es [eb [σb [tsb [kids [vs [sb [Eσ [Ets [Hbb [L1 [L2 [M [Da [Tl [Pf [las0 I0]]]]]]]]]]]]]]]]].
      rewrite firstn_all in *.
      destruct (built_valid _ _ _ _ Hbb) as [eb' [σb' [E2 [Hvb [Hlenb Hb0]]]]]. injection E2 as <- <-.
      assert (Hperf : perform act (Node r kids) sb = act r vs s) by (rewrite perform_node, Pf; reflexivity).
      assert (Hread : read ts = read tsb ++ yield (Node r kids)).
      { rewrite Ets, read_app, read_combine by congruence. reflexivity. }
      assert (Hder : derives (N A) (Node r kids)) by (econstructor; eassumption).
      assert (Hred : forall depth', yy_reduce act depth' (e :: σ) r s = 
         match act r vs s with
         | inl x => Throw _ x
         | inr (v, s') =>
          match find_reduce_action (stateno eb) (ncode A) with
          | None => Assertion _
          | Some a => if a <? YYNSTATE then Ret _ (yy_shift depth' (eb :: σb) a (ncode A) v, s')
                      else if a =? YY_ACCEPT_ACTION then Ret _ ([], s') else Assertion _
          end
         end).
      { intros depth'. rewrite Eσ. apply (reduce_eq act depth' es eb σb r A rhs s vs Hg L1 M). }
      destruct (act r vs s) as [x|[v s']] eqn:Eact.
      + (* the action throws *)
        exists e, σ, ts, s. split; [exact Hb|]. split; [reflexivity|]. split; [lia|]. split; [left; reflexivity|]. split; [intros; assumption|].
        assert (Thr : exists t w, derives (N Deck) t /\ token_list (yield t) /\ yield t = read ts ++ w /\ perform act t s0 = inl x).
        { destruct (Nat.eq_dec r 0) as [->|Hrn].
          - destruct (start_item) as [las1 [I1 _]].
            assert (Sb : stateno eb = 0) by (apply (item00 _ las0); assumption).
            assert (A = Deck) by (cbn in Hg; injection Hg as <- _; reflexivity). subst A.
            specialize (Hb0 Sb). subst σb. inversion Hbb; subst.
            exists (Node 0 kids), []. split; [exact Hder|]. split; [exact Tl|]. split; [rewrite app_nil_r; symmetry; exact Hread|exact Hperf].
          - destruct (before_lhs _ _ _ _ _ Hvb I0 Hg Hrn) as [r' [d' [las' [A' [rhs' [Hi' [Hg' Hd']]]]]]].
            assert (Es : skipn d' rhs' = N A :: skipn (S d') rhs').
            { clear -Hd'. revert d' Hd'. induction rhs' as [|y rhs IH]; intros d Hn; [destruct d; discriminate Hn|].
              destruct d as [|d]; cbn in *; [injection Hn as ->; reflexivity|]. apply (IH d Hn). }
            destruct (canon_all (skipn (S d') rhs')) as [more [D2 T2]].
            { intros c' Hc'. apply (grammar_tokens r' A' rhs' c' Hg').
              - rewrite <- (firstn_skipn (S d') rhs'). apply in_or_app. right. exact Hc'.
              - intros ->. destruct d' as [|d']; [discriminate Hd'|]. destruct d'; discriminate Hd'. }
            destruct (completion _ _ _ _ Hbb eb σb eq_refl r' d' las' Hi' A' rhs' (Node r kids :: more) Hg') as [t' [w [pp [pw [D1 [T1 [Y1 [P1 [L3 F1]]]]]]]]].
            + rewrite Es. constructor; [exact Hder|exact D2].
            + apply Forall_app. split; assumption.
            + exists t', (flat_map yield more ++ w). split; [exact D1|]. split; [exact T1|]. split.
              * rewrite Y1, Hread. cbn [flat_map]. rewrite <- !app_assoc. reflexivity.
              * apply F1. cbn [perform_list]. rewrite Hperf. reflexivity. }
        destruct Thr as [t1 [w1 [TD [TT [TY TP]]]]].
        right. right. right. exists x, t1, w1. split; [exact TD|]. split; [exact TT|]. split; [exact TY|]. split; [exact TP|]. intros depth' cnt rest Hla.
        apply ends_throw with (e := e) (st := σ) (r := r); [reflexivity|rewrite Hla; exact Ha|exact Hr|apply Hred].
      + destruct (Nat.eq_dec r 0) as [->|Hrn].
        * (* accept *)
          exists e, σ, ts, s. split; [exact Hb|]. split; [reflexivity|]. split; [lia|]. split; [left; reflexivity|]. split; [intros; assumption|].
          right. right. left. split; [exact (Hr0 eq_refl)|].
          assert (Sb : stateno eb = 0) by (apply (item00 _ las0); assumption).
          assert (A = Deck) by (cbn in Hg; injection Hg as <- _; reflexivity). subst A.
          assert (B0 : tsb = [] /\ sb = s0).
          { specialize (Hb0 Sb). subst σb. inversion Hbb; subst. split; reflexivity. }
          destruct B0 as [-> ->].
          exists (Node 0 kids), v, s'. split; [exact Hder|]. split; [symmetry; exact Hread|]. split; [exact Hperf|].
          intros depth' cnt. apply ends_accept with (e := e) (st := σ) (r := 0%nat); [reflexivity|rewrite <- (Hr0 eq_refl); exact Ha|exact Hr|].
          rewrite Hred, Sb, accept_true. reflexivity.
        * (* an ordinary rule *)
          destruct (before_lhs _ _ _ _ _ Hvb I0 Hg Hrn) as [r' [d' [las' [A' [rhs' [Hi' [Hg' Hd']]]]]]].
          pose proof (forward_of _ _ _ _ _ _ Hvb Hi' Hg') as F. rewrite Hd' in F. destruct F as [[q [las'' [Htr [Hvq _]]]] _]; [discriminate|].
          destruct (trans_nonterm _ _ _ Htr) as [T1 T2]. apply Z.ltb_lt in T2.
          destruct (rule_facts _ _ _ Hg) as [_ [X0 [rhs0 [Erhs _]]]].
          assert (Hes : (0 < length es)%nat) by (rewrite L1, Erhs; cbn; lia).
          assert (Hll : length (e :: σ) = (length es + length (eb :: σb))%nat) by (rewrite Eσ, app_length; reflexivity).
          assert (Hb' : built s0 (mkEntry q (scode (N A)) v :: eb :: σb) (tsb ++ [(N A, Node r kids)]) s').
          { eapply built_push; [exact Hbb|exact Htr|exact Hder|exact Tl|exact Hperf]. }
          assert (Hmu' : mu (mkEntry q (scode (N A)) v :: eb :: σb) < mu (e :: σ)).
          { unfold mu. cbn [major]. pose proof (rank_bound (N A)) as R1. cbn [length] in *.
            destruct rhs0 as [|X1 rhs1].
            - assert (LL : length es = 1%nat) by (rewrite L1, Erhs; reflexivity).
              replace (length σ) with (S (length σb)) by lia.
              destruct es as [|e2 [|e3 es]]; try discriminate LL. cbn in Eσ. injection Eσ as -> ->.
              inversion Hb as [|e4 σ4 ts4 s4 X t4 v4 s4' q4 Hb4 Ht4 Hd4 Hy4 Hp4]; subst.
              destruct kids as [|k [|k' kids]]; try discriminate L2. 
              match goal with H : _ ++ [_] = _ ++ combine [X0] [k] |- _ => cbn [combine] in H; apply app_inj_tail in H; destruct H as [_ H]; injection H as -> -> end.
              cbn [major]. pose proof (unit_rank _ _ _ Hg (token_not_error _ _ Hd4 Hy4)) as UR.
              assert (rank (scode X0) < rank (ncode A)).
              { apply UR. intros c0 ->. inversion Hd4; subst. inversion Hy4; subst. assumption. }
              cbn [scode] in *. lia.
            - assert (LL : (2 <= length es)%nat) by (rewrite L1, Erhs; cbn; lia).
              inversion Hb; subst; cbn [major].
              + cbn in Hll. lia.
              + pose proof (rank_bound X). cbn [length] in *. lia. }
          destruct (IH s0 (mkEntry q (scode (N A)) v) (eb :: σb) (tsb ++ [(N A, Node r kids)]) s' depth c Hb' ltac:(cbn [length] in *; lia) Hc ltac:(lia))
            as [e' [σ' [ts' [s'' [Hb'' [Rd [Ln [Tp [Rep Fin]]]]]]]]].
          assert (Hread' : read (tsb ++ [(N A, Node r kids)]) = read ts).
          { rewrite Hread, read_app. cbn [read flat_map snd]. rewrite app_nil_r. reflexivity. }
          rewrite Hread' in Rd.
          exists e', σ', ts', s''. split; [exact Hb''|]. split; [exact Rd|]. split; [cbn [length] in *; lia|].
          split. { right. destruct Tp as [->|Tp]; [cbn [major scode]; apply ncode_range|exact Tp]. } split.
          -- intros depth' cnt rest res Hdep Hla Hres He.
             apply ends_reduce with (e := e) (st := σ) (r := r) (st' := mkEntry q (scode (N A)) v :: eb :: σb) (s' := s');
               [reflexivity|rewrite Hla; exact Ha|exact Hr| |discriminate|exact Hres|].
             ++ rewrite Hred, T1, T2. unfold yy_shift.
                replace (Nat.leb depth' (length (eb :: σb))) with false by (symmetry; apply Nat.leb_gt; lia). reflexivity.
             ++ apply Rep; assumption.
          -- rewrite Hread' in Fin. exact Fin.
    - (* error *)
      exists e, σ, ts, s. split; [exact Hb|]. split; [reflexivity|]. split; [lia|]. split; [left; reflexivity|]. split; [intros; assumption|].
      right. left. exact Ha.
  Qed.

End P.
