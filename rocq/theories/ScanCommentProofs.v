(** Comments and blanks have no effect; names are not glued to operators. *)
From Coq Require Import ZArith NArith List Bool Ascii String Lia.
From Verif Require Import ScanModel ScanSpec ScanRegexProofs ScanTableProofs ScanProofs ScanLoopProofs.
Import ListNotations.
Local Open Scope Z_scope.
Local Open Scope list_scope.

Lemma unfinished_state : forall u, u <> [] -> unfinished u -> exists q t e a, pend q u t e a.
Proof.
  induction u as [|c u IH] using rev_ind; intros N U; [congruence |]. clear N.
  assert (HB : exists q t e a, base q u t e a).
  { destruct u as [|x u']; [exists 10, 0%nat, 0%nat, 0; left; auto |].
    destruct IH as (q & t & e & a & P); [discriminate | eapply unfinished_prefix; eassumption |]. exists q, t, e, a. right; assumption. }
  destruct HB as (q & t & e & a & HB). destruct (trans_ok q c (base_here _ _ _ _ _ HB)) as (cl & _ & Ck).
  destruct cl.
  - destruct (step_cont _ _ _ _ _ c nl te a0 q0 _ HB Ck eq_refl) as (_ & _ & P). eauto.
  - destruct (step_now _ _ _ _ _ c nl a0 [] HB Ck) as (_ & k & _ & _ & _ & X). contradiction.
  - destruct (step_opens _ _ _ _ _ c [] HB Ck) as (_ & _ & X). contradiction.
  - destruct (step_prev _ _ _ _ _ c a0 [] HB Ck) as (_ & _ & X). contradiction.
  - destruct (step_back _ _ _ _ _ c a0 [] HB Ck) as (_ & X). contradiction.
  - destruct (step_err _ _ _ _ _ c [] HB Ck) as (_ & X). contradiction.
Qed.

Lemma lexeme_ders : forall u u' v, ders u = ders u' -> is_lexeme (u ++ v) -> is_lexeme (u' ++ v).
Proof.
  intros u u' v E L. assert (E2 : ders (u' ++ v) = ders (u ++ v)) by (unfold ders in *; rewrite !ders_from_app, E; reflexivity).
  pose proof (accept_spec (u ++ v)) as A. pose proof (accept_spec (u' ++ v)) as A'. rewrite E2 in A'.
  destruct (accept (ders (u ++ v))); [eapply best_lexeme; eassumption | contradiction].
Qed.

Definition slashes : list ascii := ["/"; "/"]%char.
Lemma table_line : forallb (fun c => is_nl c || vec_eqb (step_vec c (state_vec 7)) (state_vec 7)) all_chars = true.
Proof. vm_compute. reflexivity. Qed.
Lemma line_ders : forall v, ~ In newline v -> ders (slashes ++ v) = state_vec 7.
Proof.
  induction v as [|c v IH] using rev_ind; intros N; [reflexivity |].
  rewrite app_assoc, ders_snoc, IH by (intros I; apply N; apply in_or_app; auto).
  pose proof table_line as T. rewrite forallb_forall in T. specialize (T c (all_chars_in c)). apply orb_true_iff in T.
  destruct T as [T | T]; [| apply vec_eqb_eq; assumption].
  unfold is_nl in T. destruct (ascii_dec c newline) as [->|]; [| discriminate]. exfalso. apply N. apply in_or_app. simpl. auto.
Qed.
Lemma line_needs_newline : forall v, is_lexeme (slashes ++ v) -> In newline v.
Proof.
  intros v L. destruct (in_dec ascii_dec newline v) as [|N]; [assumption |]. exfalso.
  pose proof (accept_spec (slashes ++ v)) as A. rewrite (line_ders v N) in A. apply A. assumption.
Qed.
Lemma line_lexeme : forall v, ~ In newline v -> is_lexeme (slashes ++ v ++ [newline]).
Proof.
  intros v N. apply (best_lexeme _ Blank). apply accept_some. rewrite app_assoc, ders_snoc, (line_ders v N). vm_compute. reflexivity.
Qed.
Lemma first_newline : forall v, In newline v -> exists v1 v2, v = v1 ++ newline :: v2 /\ ~ In newline v1.
Proof.
  induction v as [|c v IH]; intros I; [destruct I |]. destruct (ascii_dec c newline) as [->|N].
  - exists [], v. auto.
  - destruct IH as (v1 & v2 & -> & N1); [destruct I; [contradiction | assumption] |].
    exists (c :: v1), v2. split; [reflexivity |]. intros [E | I1]; [apply N; auto | auto].
Qed.

Lemma table_blank : forallb (fun q => forallb (fun c => in_set [(33, 126)]%N c || zmem q [1;2;3;4;7] || dead (step_vec c (state_vec q))) all_chars) inner = true.
Proof. vm_compute. reflexivity. Qed.
Lemma table_blank0 : forallb (fun c => in_set [(33, 126)]%N c || (okind_eqb (accept (ders [c])) (Some Blank) && dead (strip_vec (ders [c])))) all_chars = true.
Proof. vm_compute. reflexivity. Qed.

Lemma blank_longest : forall c s, blank_char c -> longest (c :: s) [c] Blank.
Proof.
  intros c s H. pose proof table_blank0 as T. rewrite forallb_forall in T. specialize (T c (all_chars_in c)). unfold blank_char in H. rewrite H in T.
  rewrite orb_false_l in T. apply andb_true_iff in T. destruct T as [T1 T2]. apply okind_eqb_eq in T1.
  change (c :: s) with ([c] ++ s). apply longest_ext; [apply longest_self; [discriminate | apply accept_some; assumption] |].
  intros v r _ Nv L. apply (strip_dead_no _ T2). exists v. auto.
Qed.

Lemma longest_blank : forall w x g r k c b,
  longest (w ++ x ++ g ++ r) w k -> blank_char c -> (In newline (c :: b) -> In newline g) ->
  longest (w ++ x ++ (c :: b) ++ r) w k.
Proof.
  intros w x g r k c b (N & HB & _ & M) BC NG. split; [assumption | split; [assumption | split; [eauto |]]].
  intros w' r' E L Lw'.
  assert (E1 : (w ++ x) ++ (c :: b) ++ r = w' ++ r') by (rewrite <- app_assoc; exact E).
  destruct (Nat.le_gt_cases (List.length w') (List.length (w ++ x))) as [Hl|Hl].
  - destruct (app_len_inv w' r' (w ++ x) _ (eq_sym E1) Hl) as (y & Ey & _).
    apply (M w' (y ++ g ++ r)); [rewrite (app_assoc w), Ey, <- app_assoc; reflexivity | assumption | assumption].
  - destruct (app_len_inv (w ++ x) _ w' r' E1 ltac:(lia)) as (v & Ev & Ex).
    destruct v as [|c' v]; [rewrite app_nil_r in Ev; subst w'; lia |]. simpl in Ex. injection Ex as <- Ex.
    assert (U : unfinished (w ++ x)) by (exists (c :: v); split; [discriminate | rewrite <- Ev; assumption]).
    destruct (unfinished_state (w ++ x)) as (q & t & e & a & P); [destruct w; [congruence | discriminate] | assumption |].
    pose proof table_blank as T. rewrite forallb_forall in T. specialize (T q (p_in _ _ _ _ _ P)). cbn beta in T.
    rewrite forallb_forall in T. specialize (T c (all_chars_in c)). unfold blank_char in BC. rewrite BC in T. rewrite orb_false_l in T.
    apply orb_true_iff in T. destruct T as [T | T].
    + apply zmem_In in T. simpl in T.
      assert (Q : no_match q = true \/ q = 7) by (destruct T as [<- | [<- | [<- | [<- | [<- | []]]]]]; auto).
      destruct Q as [Q | ->].
      * apply (p_stuck _ _ _ _ _ P Q w x eq_refl N). eapply best_lexeme; eassumption.
      * assert (D : ders (w ++ x) = ders slashes) by (apply (p_vec _ _ _ _ _ P); discriminate).
        rewrite Ev in Lw'. apply (lexeme_ders _ _ _ D) in Lw'. apply line_needs_newline in Lw'.
        assert (IN : In newline (g ++ r)).
        { assert (I2 : In newline ((c :: b) ++ r)).
          { simpl in Lw' |- *. destruct Lw' as [H | H]; [left; assumption | right]. rewrite Ex. apply in_or_app. auto. }
          apply in_app_or in I2. apply in_or_app. destruct I2; [left; apply NG; assumption | right; assumption]. }
        destruct (first_newline _ IN) as (v1 & v2 & Eg & N1).
        apply (M ((w ++ x) ++ v1 ++ [newline]) v2).
        -- rewrite Eg, <- !app_assoc. reflexivity.
        -- rewrite !app_length. simpl. lia.
        -- apply (lexeme_ders slashes); [symmetry; assumption |]. apply line_lexeme. assumption.
    + assert (D : dead (ders ((w ++ x) ++ [c])) = true).
      { rewrite ders_snoc, <- step_strip, (p_strip _ _ _ _ _ P), step_strip. assumption. }
      apply (dead_no _ v D). rewrite Ev in Lw'. rewrite <- app_assoc. exact Lw'.
Qed.

Definition blanks (b : list ascii) : list segment := map (fun c => Lexeme Blank [c]) b.

Lemma texts_app : forall a b, texts (a ++ b) = texts a ++ texts b.
Proof. intros. unfold texts. rewrite map_app, concat_app. reflexivity. Qed.

Lemma blanks_segments : forall b r l o, Forall blank_char b -> segments r l o -> segments (b ++ r) (blanks b ++ l) o.
Proof.
  induction b as [|c b IH]; intros r l o F H; [exact H |]. inversion F; subst. simpl.
  change (c :: b ++ r) with ([c] ++ (b ++ r)). apply seg_lexeme; [apply blank_longest; assumption | discriminate | apply IH; assumption].
Qed.

Lemma replace_silent : forall l1 x l2 o s b, segments s (l1 ++ x :: l2) o -> b <> [] -> Forall blank_char b ->
  (In newline b -> In newline (segment_text x)) ->
  segments (texts l1 ++ b ++ texts l2 ++ remainder o) (l1 ++ blanks b ++ l2) o.
Proof.
  induction l1 as [|y l1 IH]; intros x l2 o s b H NB F NG.
  - simpl. apply blanks_segments; [assumption |].
    assert (H2 : exists r, segments r l2 o) by (inversion H; subst; eauto). destruct H2 as (r & H2).
    pose proof (segments_text _ _ _ H2) as E. change (List.concat (map segment_text l2)) with (texts l2) in E. rewrite <- E. assumption.
  - destruct b as [|c b]; [congruence |]. inversion F as [|? ? BC F']; subst.
    pose proof (segments_text _ _ _ H) as ET. simpl in ET.
    inversion H as [| w r k l o' HL NK HS Es El Eo | w bb r l o' HL NC HS Es El Eo | | |]; subst.
    + pose proof (IH _ _ _ _ _ HS NB F NG) as HS'.
      change (texts (Lexeme k w :: l1)) with (w ++ texts l1). rewrite <- !app_assoc. simpl app at 3.
      apply seg_lexeme; [| assumption | exact HS'].
      pose proof (segments_text _ _ _ HS) as ER. fold (texts (l1 ++ x :: l2)) in ER. rewrite texts_app in ER.
      change (texts (x :: l2)) with (segment_text x ++ texts l2) in ER. rewrite <- !app_assoc in ER.
      rewrite ER in HL. exact (longest_blank _ _ _ _ _ _ _ HL BC NG).
    + pose proof (IH _ _ _ _ _ HS NB F NG) as HS'.
      change (texts (Comment w bb :: l1)) with ((w ++ bb ++ close) ++ texts l1). rewrite <- !app_assoc. 
      apply seg_comment; [| assumption | exact HS'].
      pose proof (segments_text _ _ _ HS) as ER. fold (texts (l1 ++ x :: l2)) in ER. rewrite texts_app in ER.
      change (texts (x :: l2)) with (segment_text x ++ texts l2) in ER. rewrite <- !app_assoc in ER.
      rewrite ER in HL.
      pose proof (longest_blank w (bb ++ close ++ texts l1) (segment_text x) (texts l2 ++ remainder o) OpenComment c b) as LB.
      rewrite <- !app_assoc in LB. exact (LB HL BC NG).
Qed.

Lemma tokens_of_app : forall a b L, tokens_of L (a ++ b) = tokens_of L a ++ tokens_of (L + newlines (texts a)) b.
Proof.
  induction a as [|x a IH]; intros b L.
  - simpl. unfold newlines; simpl. rewrite Z.add_0_r. reflexivity.
  - change (texts (x :: a)) with (segment_text x ++ texts a). rewrite newlines_app, Z.add_assoc. simpl.
    destruct x; rewrite IH; [rewrite app_assoc |]; reflexivity.
Qed.
Lemma blanks_texts : forall b, texts (blanks b) = b.
Proof. induction b as [|c b IH]; [reflexivity |]. unfold texts in *. simpl. f_equal. exact IH. Qed.
Lemma blanks_tokens : forall b L, tokens_of L (blanks b) = [].
Proof. induction b as [|c b IH]; intros L; [reflexivity |]. simpl. apply IH. Qed.

Lemma replace_tokens : forall l1 x l2 b L, silent x -> newlines b = newlines (segment_text x) ->
  tokens_of L (l1 ++ blanks b ++ l2) = tokens_of L (l1 ++ x :: l2).
Proof.
  intros l1 x l2 b L S E. rewrite !tokens_of_app, blanks_tokens, blanks_texts, E. f_equal.
  destruct x as [k w | w bb]; simpl in *; [rewrite S |]; reflexivity.
Qed.
Lemma newlines_In : forall a b, newlines a = newlines b -> In newline a -> In newline b.
Proof.
  intros a b E I. destruct (in_dec ascii_dec newline b) as [|N]; [assumption |]. exfalso.
  assert (Z : newlines b = 0).
  { unfold newlines. replace (filter _ b) with (@nil ascii); [reflexivity |]. symmetry. clear E. induction b as [|c b IH]; [reflexivity |].
    simpl. destruct (ascii_dec c newline) as [->|]; [exfalso; apply N; simpl; auto |]. apply IH. intros H. apply N. simpl; auto. }
  rewrite Z in E. unfold newlines in E. apply in_split in I. destruct I as (x & y & ->).
  rewrite filter_app, app_length in E. simpl in E. destruct (ascii_dec newline newline); [| congruence]. simpl in E. lia.
Qed.

Lemma comments_no_effect : forall B B' fuel fuel' l1 x l2 o s b X X', (0 < B)%nat -> (0 < B')%nat ->
  segments s (l1 ++ x :: l2) o -> silent x -> b <> [] -> Forall blank_char b -> newlines b = newlines (segment_text x) ->
  do_scan B fuel s = Some X -> do_scan B' fuel' (texts l1 ++ b ++ texts l2 ++ remainder o) = Some X' -> X = X'.
Proof.
  intros B B' fuel fuel' l1 x l2 o s b [t f] [t' f'] HB HB' H S NB F EN E E'.
  destruct (do_scan_sound _ _ _ _ _ HB E) as (l & o1 & H1 & -> & ->).
  destruct (do_scan_sound _ _ _ _ _ HB' E') as (l' & o1' & H1' & -> & ->).
  destruct (segments_det _ _ _ H _ _ H1) as [<- <-].
  pose proof (replace_silent _ _ _ _ _ _ H NB F (newlines_In _ _ EN)) as H2.
  destruct (segments_det _ _ _ H2 _ _ H1') as [<- <-].
  rewrite (replace_tokens _ _ _ _ _ S EN). reflexivity.
Qed.

(** ** Names before operators *)
Lemma table_ops : forallb (fun q => forallb (fun c => zmem q [1;2;3;4;5;6;7;13;17] || dead (step_vec c (state_vec q))) op_chars) inner = true.
Proof. vm_compute. reflexivity. Qed.


(** The derivative of one rule, by its position. *)
Lemma nth_ders : forall i w, nth i (ders w) (Blank, RNone) = (fst (nth i rules (Blank, RNone)), fold_left (fun r c => deriv c r) w (snd (nth i rules (Blank, RNone)))).
Proof.
  intros i w. unfold ders, ders_from. generalize rules. induction w as [|c w IH]; intros v; simpl.
  - destruct (nth i v (Blank, RNone)); reflexivity.
  - rewrite IH. unfold step_vec.
    assert (E : nth i (map (fun x : kind * regex => (fst x, deriv c (snd x))) v) (Blank, RNone) = (fst (nth i v (Blank, RNone)), deriv c (snd (nth i v (Blank, RNone)))))
      by (rewrite <- (map_nth (fun x : kind * regex => (fst x, deriv c (snd x)))); reflexivity).
    rewrite E. reflexivity.
Qed.
Lemma fold_deriv : forall w r v, matches (fold_left (fun r c => deriv c r) w r) v <-> matches r (w ++ v).
Proof. induction w as [|c w IH]; intros r v; simpl; [reflexivity |]. rewrite IH, deriv_iff. reflexivity. Qed.
Lemma rule_ders : forall i u u' v, ders u = ders u' ->
  matches (snd (nth i rules (Blank, RNone))) (u ++ v) -> matches (snd (nth i rules (Blank, RNone))) (u' ++ v).
Proof.
  intros i u u' v E M. apply fold_deriv in M. apply fold_deriv.
  pose proof (nth_ders i u) as H. pose proof (nth_ders i u') as H'. rewrite E in H. rewrite H in H'. apply (f_equal snd) in H'. cbn [snd] in H'. rewrite <- H'. assumption.
Qed.

Lemma star_set : forall l v, Forall (fun c => in_set l c = true) v -> matches (RStar (RSet l)) v.
Proof.
  intros l. induction v as [|c v IH]; intros F; [constructor |]. inversion F; subst.
  change (c :: v) with ([c] ++ v). constructor; [constructor; assumption | apply IH; assumption].
Qed.
Lemma star_set_inv : forall l v, matches (RStar (RSet l)) v -> Forall (fun c => in_set l c = true) v.
Proof.
  intros l v H. remember (RStar (RSet l)) as r. induction H; try discriminate; [constructor |].
  injection Heqr as ->. inversion H; subst. simpl. constructor; [assumption | apply IHmatches2; reflexivity].
Qed.
Lemma name_matches : forall w, is_name w -> matches (RSeq alpha_u (RStar alnum_u)) w.
Proof.
  intros w (c & v & -> & L & F). change (c :: v) with ([c] ++ v). constructor; [constructor; exact L | apply star_set; exact F].
Qed.

Lemma digits_inv : forall v, matches (plus digit) v -> Forall (fun c => in_set digit_set c = true) v.
Proof. intros v H. unfold plus in H. apply seq_iff in H. destruct H as (a & b & -> & Ha & Hb). inversion Ha; subst. constructor; [assumption | apply star_set_inv; assumption]. Qed.

Lemma in_set_excl : forall c, is_letter c -> in_set digit_set c = false /\ in_set [ch "."] c = false.
Proof.
  intros c. unfold is_letter.
  assert (T : forallb (fun c => negb (in_set [(65, 90); (97, 122); (95, 95)]%N c) || (negb (in_set digit_set c) && negb (in_set [ch "."] c))) all_chars = true) by (vm_compute; reflexivity).
  rewrite forallb_forall in T. specialize (T c (all_chars_in c)). intros H. rewrite H in T. simpl negb in T. rewrite orb_false_l, andb_true_iff, !negb_true_iff in T. exact T.
Qed.

Lemma name_exponent : forall w, is_name w -> matches (RSeq (RStar digit) (RAlt float_dec float_exp)) (w ++ ["-"; "1"]%char) ->
  w = ["e"%char] \/ w = ["E"%char].
Proof.
  intros w (c & v & -> & L & F) M. destruct (in_set_excl c L) as [X1 X2].
  apply seq_iff in M. destruct M as (u1 & u2 & E & M1 & M2). apply star_set_inv in M1.
  destruct u1 as [|d u1]; [| simpl in E; injection E as <- _; inversion M1; congruence]. simpl in E. subst u2.
  apply alt_iff in M2. destruct M2 as [M2 | M2].
  - unfold float_dec in M2. apply seq_iff in M2. destruct M2 as (a & b & E & Ma & _). inversion Ma; subst. simpl in E. injection E as <- _. congruence.
  - unfold float_exp in M2. apply seq_iff in M2. destruct M2 as (a & b & E & Ma & Mb). inversion Ma as [|l c0 Ic| | | | | |]; subst. simpl in E. injection E as <- E. subst b.
    assert (Ce : c = "e"%char \/ c = "E"%char).
    { revert Ic. assert (T : forallb (fun c => negb (in_set [ch "e"; ch "E"] c) || (if ascii_dec c "e" then true else if ascii_dec c "E" then true else false)) all_chars = true) by (vm_compute; reflexivity).
      rewrite forallb_forall in T. specialize (T c (all_chars_in c)). intros Ic. rewrite Ic in T. simpl in T.
      destruct (ascii_dec c "e"); [auto |]. destruct (ascii_dec c "E"); [auto | discriminate]. }
    assert (V : v = []).
    { destruct v as [|x v]; [reflexivity |]. exfalso. inversion F as [|? ? Fx F']; subst.
      apply seq_iff in Mb. destruct Mb as (a & b & E & Ms & Md).
      assert (D : In "-"%char b).
      { unfold opt in Ms. apply alt_iff in Ms. destruct Ms as [Ms | Ms].
        - inversion Ms as [|l0 c0 Ix| | | | | |]; subst. simpl in E. injection E as <- E. subst b. 
          exfalso. revert Fx Ix. unfold is_alnum.
          assert (T : forallb (fun c => negb (in_set [(65, 90); (97, 122); (95, 95); (48, 57)]%N c && in_set [ch "+"; ch "-"] c)) all_chars = true) by (vm_compute; reflexivity).
          rewrite forallb_forall in T. specialize (T x (all_chars_in x)). intros Q1 Q. rewrite Q1, Q in T. discriminate.
        - apply eps_iff in Ms. subst a. simpl in E. subst b. right. apply in_or_app. right. left. reflexivity. }
      apply digits_inv in Md. rewrite Forall_forall in Md. specialize (Md _ D). discriminate. }
    subst v. destruct Ce as [-> | ->]; auto.
Qed.

Lemma name_operator : forall w c s, is_name w -> w <> ["e"%char] -> w <> ["E"%char] -> In c op_chars ->
  exists k, longest (w ++ c :: s) w k.
Proof.
  intros w c s NM N1 N2 IC. pose proof (name_matches w NM) as MW.
  assert (LW : is_lexeme w) by (exists (Word IDENTIFIER), (RSeq alpha_u (RStar alnum_u)); split; [do 18 right; left; reflexivity | assumption]).
  assert (NE : w <> []) by (destruct NM as (x & v & -> & _); discriminate).
  assert (U : unfinished w).
  { exists ["a"%char]. split; [discriminate |]. exists (Word IDENTIFIER), (RSeq alpha_u (RStar alnum_u)). split; [do 18 right; left; reflexivity |].
    apply name_matches. destruct NM as (x & v & -> & L & F). exists x, (v ++ ["a"%char]). split; [reflexivity |]. split; [assumption |].
    apply Forall_app. split; [assumption | constructor; [reflexivity | constructor]]. }
  destruct (unfinished_state w NE U) as (q & t & e & a & P).
  pose proof table_ops as T. rewrite forallb_forall in T. specialize (T q (p_in _ _ _ _ _ P)). cbn beta in T.
  rewrite forallb_forall in T. specialize (T c IC). apply orb_true_iff in T.
  assert (D : dead (step_vec c (state_vec q)) = true).
  { destruct T as [T | T]; [exfalso | assumption]. apply zmem_In in T.
    assert (V : ders w = state_vec q) by (apply (p_vec _ _ _ _ _ P); intros ->; simpl in T; intuition discriminate).
    unfold state_vec in V.
    assert (MI : matches (snd (nth 18 rules (Blank, RNone))) (access q ++ [])) by (apply (rule_ders 18 w); [assumption | rewrite app_nil_r; exact MW]).
    assert (NI : nullable (fold_left (fun r c => deriv c r) (access q) (snd (nth 18 rules (Blank, RNone)))) = true) by (apply nullable_iff, fold_deriv; assumption).
    simpl in T. destruct T as [<- | [<- | [<- | [<- | [<- | [<- | [<- | [<- | [<- | []]]]]]]]]]; try (vm_compute in NI; discriminate).
    assert (MF : matches (snd (nth 26 rules (Blank, RNone))) (w ++ ["-"; "1"]%char)).
    { apply (rule_ders 26 (access 17)); [symmetry; assumption |]. apply fold_deriv. 
      assert (NF : nullable (fold_left (fun r c => deriv c r) ["-"; "1"]%char (fold_left (fun r c => deriv c r) (access 17) (snd (nth 26 rules (Blank, RNone))))) = true) by (vm_compute; reflexivity).
      apply nullable_iff, fold_deriv in NF. rewrite app_nil_r in NF. exact NF. }
    destruct (name_exponent w NM MF); contradiction. }
  assert (D2 : dead (ders (w ++ [c])) = true) by (rewrite ders_snoc, <- step_strip, (p_strip _ _ _ _ _ P), step_strip; assumption).
  pose proof (accept_spec w) as A. destruct (accept (ders w)) as [k|]; [| contradiction]. exists k.
  apply longest_ext; [apply longest_self; assumption |]. apply (dead_ext w c s D2).
Qed.

(** ** Statements of the properties *)
Lemma division_unique : forall s, exists l o, segments s l o /\ forall l' o', segments s l' o' -> l' = l /\ o' = o.
Proof.
  intros s. destruct (segments_total s) as (l & o & H). exists l, o. split; [assumption |]. intros l' o' H'. eapply segments_det; eassumption.
Qed.
Lemma buffer_independent : forall size1 size2 fuel1 fuel2 s r1 r2, (0 < size1)%nat -> (0 < size2)%nat ->
  do_scan size1 fuel1 s = Some r1 -> do_scan size2 fuel2 s = Some r2 -> r1 = r2.
Proof.
  intros size1 size2 fuel1 fuel2 s [t1 f1] [t2 f2] H1 H2 E1 E2.
  destruct (do_scan_sound _ _ _ _ _ H1 E1) as (l1 & o1 & S1 & -> & ->). destruct (do_scan_sound _ _ _ _ _ H2 E2) as (l2 & o2 & S2 & -> & ->).
  destruct (segments_det _ _ _ S1 _ _ S2) as [-> ->]. reflexivity.
Qed.
Lemma nothing_ignored : forall size fuel s tokens flag, (0 < size)%nat -> do_scan size fuel s = Some (tokens, flag) ->
  exists l o, segments s l o /\ tokens = tokens_of 1 l /\ s = texts l ++ remainder o /\ (flag = true <-> exists r, o = Illegal r).
Proof.
  intros size fuel s tk f H E. destruct (do_scan_sound _ _ _ _ _ H E) as (l & o & S & -> & ->). exists l, o.
  split; [assumption |]. split; [reflexivity |]. split; [apply segments_text; assumption |].
  destruct o; simpl; split; intros X; try discriminate; try (destruct X; discriminate); eauto.
Qed.
