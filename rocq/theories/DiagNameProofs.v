(** File names of diagnostics. *)
From Coq Require Import ZArith List Bool String Ascii Lia Arith Decimal DecimalString DecimalZ DecimalPos DecimalFacts.
From Verif Require Import DiagModel DiagSpec.
Import ListNotations.
Local Open Scope Z_scope.

Lemma app_assoc_s : forall a b c, ((a ++ b) ++ c = a ++ (b ++ c))%string.
Proof. induction a as [|x a IH]; intros b c; cbn; [reflexivity|]. rewrite IH. reflexivity. Qed.
Lemma length_app_s : forall a b, String.length (a ++ b) = (String.length a + String.length b)%nat.
Proof. induction a as [|x a IH]; intros b; cbn; [reflexivity|]. rewrite IH. reflexivity. Qed.
Lemma chars_app : forall a b, chars (a ++ b) = chars a ++ chars b.
Proof. unfold chars. induction a as [|x a IH]; intros b; cbn; [reflexivity|]. rewrite IH. reflexivity. Qed.
Lemma chars_inj : forall a b, chars a = chars b -> a = b.
Proof. unfold chars. intros a b H. rewrite <- (string_of_list_ascii_of_string a), <- (string_of_list_ascii_of_string b), H. reflexivity. Qed.

(** ** Decimal numbers *)
Lemma decimal_inj : forall a b, decimal a = decimal b -> a = b.
Proof.
  assert (G : forall z, match NilZero.int_of_string (decimal z) with Some d => Z.of_int d | None => 0 end = z).
  { intros z. unfold decimal. pose proof (DecimalZ.of_to z) as E. destruct (Z.to_int z) as [u|u].
    - destruct u; try (rewrite NilZero.isi by discriminate; exact E). cbn in *. exact E.
    - destruct u; try (rewrite NilZero.isi by discriminate; exact E). cbn in *. exact E. }
  intros a b H. rewrite <- (G a), <- (G b), H. reflexivity.
Qed.
Lemma uint_digits : forall u, Forall digit (chars (NilEmpty.string_of_uint u)).
Proof. induction u; cbn; constructor; try exact IHu; unfold digit; cbn; lia. Qed.
Lemma decimal_digits : forall z, 0 <= z -> Forall digit (chars (decimal z)) /\ chars (decimal z) <> [].
Proof.
  intros z Hz. unfold decimal. assert (P : exists u, Z.to_int z = Pos u) by (destruct z; [eexists; reflexivity|eexists; reflexivity|lia]). destruct P as [u ->].
  cbn. destruct u; cbn; (split; [|discriminate]); constructor; try (unfold digit; cbn; lia); try constructor; apply uint_digits.
Qed.
Lemma digits_uint : forall s, Forall digit (chars s) -> exists u, NilEmpty.string_of_uint u = s.
Proof.
  unfold chars. induction s as [|c s IH]; intros H; [exists Nil; reflexivity|]. inversion H as [|? ? H1 H2]; subst. destruct (IH H2) as [u <-].
  assert (C : In c ["0"; "1"; "2"; "3"; "4"; "5"; "6"; "7"; "8"; "9"]%char).
  { unfold digit in H1. rewrite <- (ascii_nat_embedding c). remember (nat_of_ascii c) as n. clear - H1.
    do 48 (destruct n as [|n]; [lia|]). do 10 (destruct n as [|n]; [cbn; tauto|]). lia. }
  destruct C as [<-|[<-|[<-|[<-|[<-|[<-|[<-|[<-|[<-|[<-|[]]]]]]]]]]].
  - exists (D0 u). reflexivity.
  - exists (D1 u). reflexivity.
  - exists (D2 u). reflexivity.
  - exists (D3 u). reflexivity.
  - exists (D4 u). reflexivity.
  - exists (D5 u). reflexivity.
  - exists (D6 u). reflexivity.
  - exists (D7 u). reflexivity.
  - exists (D8 u). reflexivity.
  - exists (D9 u). reflexivity.
Qed.
Lemma decimal_one : forall s, Forall digit (chars s) -> exists z, 0 <= z /\ decimal z = String "1" s.
Proof.
  intros s H. destruct (digits_uint s H) as [u <-]. exists (Z.of_int (Pos (D1 u))). split.
  - unfold Z.of_int, Z.of_uint. lia.
  - unfold decimal. rewrite DecimalZ.to_of. reflexivity.
Qed.

(** ** Place holders *)
Definition starts (k : ascii) (s : string) : bool := match s with String c _ => Ascii.eqb c k | EmptyString => false end.
Fixpoint free (k : ascii) (s : string) : bool :=
  match s with EmptyString => true | String c s' => negb (Ascii.eqb c "#" && starts k s') && free k s' end.
Lemma replace_free : forall k by_ pre post, k <> "#"%char -> free k pre = true -> replace "#" k by_ (pre ++ String "#" (String k post)) = (pre ++ by_ ++ post)%string.
Proof.
  intros k by_ pre post Hk. induction pre as [|c pre IH]; intros H.
  - cbn. rewrite Ascii.eqb_refl. reflexivity.
  - cbn [free] in H. apply andb_prop in H. destruct H as [H1 H2]. specialize (IH H2). cbn [String.append replace].
    destruct pre as [|c' pre]; cbn [String.append] in *.
    + destruct (Ascii.eqb_spec "#" k) as [E|_]; [congruence|]. rewrite andb_false_r. cbn [String.append]. f_equal. exact IH.
    + cbn [starts] in H1. destruct (Ascii.eqb c "#" && Ascii.eqb c' k); [discriminate|]. f_equal. exact IH.
Qed.
Lemma free_holder : forall k s pre post, k <> "#"%char -> place_holder k s pre post -> s = (pre ++ String "#" (String k post))%string /\ free k pre = true.
Proof.
  intros k s pre post Hk [-> H]. split; [reflexivity|]. revert H. induction pre as [|c pre IH]; intros H; [reflexivity|]. cbn [free]. apply andb_true_intro. split.
  - destruct (Ascii.eqb_spec c "#") as [->|_]; [|reflexivity]. destruct pre as [|c' pre]; [reflexivity|]. cbn. destruct (Ascii.eqb_spec c' k) as [->|_]; [|reflexivity].
    specialize (H EmptyString (pre ++ String "#" (String k post))%string eq_refl). cbn in H. lia.
  - apply IH. intros pre' post' E. specialize (H (String c pre') post'). cbn in H. rewrite E in H. specialize (H eq_refl). lia.
Qed.
Lemma free_prefix : forall k a b, free k (a ++ b) = true -> free k a = true.
Proof.
  intros k. induction a as [|c a IH]; intros b H; [reflexivity|]. cbn [String.append free] in *. apply andb_prop in H. destruct H as [H1 H2]. rewrite (IH _ H2), andb_true_r.
  destruct a as [|c' a]; [|exact H1]. cbn. rewrite andb_false_r. reflexivity.
Qed.
Lemma free_suffix : forall k a b, free k (a ++ b) = true -> free k b = true.
Proof. intros k. induction a as [|c a IH]; intros b H; [exact H|]. cbn [String.append free] in H. apply andb_prop in H. apply IH. apply H. Qed.
Lemma digit_not : forall c k, digit c -> ~ digit k -> Ascii.eqb c k = false.
Proof. intros c k H N. destruct (Ascii.eqb_spec c k); [subst; contradiction|reflexivity]. Qed.
Lemma free_swap : forall k pre d r mid, ~ digit k -> ~ digit "#" -> Forall digit (chars (String d r)) -> free k (pre ++ String "#" (String "p" mid)) = true -> free k (pre ++ String d r ++ mid) = true.
Proof.
  intros k pre d r mid Hk Hs Hd. induction pre as [|c pre IH]; intros H.
  - apply (free_suffix k "#p" mid) in H. revert Hd. change (Forall digit (chars (String d r)) -> free k (String d r ++ mid)%string = true). generalize (String d r). intros w Hw. unfold chars in Hw. induction w as [|x w IHw]; [exact H|]. inversion Hw as [|? ? H1 H2]; subst. cbn [String.append free]. rewrite (digit_not x "#" H1 Hs). cbn. apply IHw. exact H2.
  - cbn [String.append free] in *. apply andb_prop in H. destruct H as [H1 H2]. rewrite (IH H2), andb_true_r. destruct pre as [|c' pre]; [|exact H1].
    cbn [String.append starts]. inversion Hd as [|? ? D1 D2]; subst. rewrite (digit_not d k D1 Hk). rewrite andb_false_r. reflexivity.
Qed.

(** The names made of a pattern with both place holders. *)
Definition step_text (n : Z) : string := if n <? 0 then "final"%string else decimal n.
Lemma not_digit_t : ~ digit "t". Proof. unfold digit. cbn. lia. Qed.
Lemma not_digit_p : ~ digit "p". Proof. unfold digit. cbn. lia. Qed.
Lemma not_digit_h : ~ digit "#". Proof. unfold digit. cbn. lia. Qed.
Lemma name_parts : forall s mid, between s mid -> exists pre post (swap : bool), forall rank n, 0 <= rank ->
  parsed_file_name false s rank n = (pre ++ (if swap then step_text n else decimal rank) ++ mid ++ (if swap then decimal rank else step_text n) ++ post)%string.
Proof.
  intros s mid [k1 [k2 [pre [post [[[-> ->]|[-> ->]] [H1 H2]]]]]].
  - apply free_holder in H1; [|discriminate]. apply free_holder in H2; [|discriminate]. destruct H1 as [-> F1], H2 as [_ F2]. exists pre, post, false. intros rank n Hr. unfold parsed_file_name. fold (step_text n).
    rewrite replace_free by (discriminate || exact F1). destruct (decimal_digits rank Hr) as [D1 D2]. destruct (decimal rank) as [|d r] eqn:Ed; [contradiction|].
    rewrite <- !app_assoc_s. rewrite replace_free; [rewrite !app_assoc_s; reflexivity|discriminate|]. rewrite app_assoc_s. apply free_swap; [apply not_digit_t|apply not_digit_h|exact D1|]. exact F2.
  - apply free_holder in H1; [|discriminate]. apply free_holder in H2; [|discriminate]. destruct H1 as [-> F1], H2 as [_ F2]. exists pre, post, true. intros rank n Hr. unfold parsed_file_name. fold (step_text n).
    assert (E : (pre ++ String "#" (String "t" (mid ++ String "#" (String "p" post))) = (pre ++ String "#" (String "t" mid)) ++ String "#" (String "p" post))%string) by (rewrite app_assoc_s; reflexivity).
    rewrite E, replace_free by (discriminate || exact F2). rewrite app_assoc_s. cbn [String.append]. rewrite replace_free by (discriminate || exact F1). reflexivity.
Qed.

(** ** Distinct names *)
Lemma digit_dec : forall c, {digit c} + {~ digit c}.
Proof. intros c. unfold digit. destruct (le_dec 48 (nat_of_ascii c)), (le_dec (nat_of_ascii c) 57); (left; lia) || (right; lia). Qed.
Lemma first_stop : forall a b x y (r1 r2 : list ascii), Forall digit a -> Forall digit b -> ~ digit x -> ~ digit y -> a ++ x :: r1 = b ++ y :: r2 -> a = b /\ x = y /\ r1 = r2.
Proof.
  induction a as [|c a IH]; intros [|c' b] x y r1 r2 Ha Hb Hx Hy E; cbn in E; inversion E; subst; auto.
  - inversion Hb; contradiction.
  - inversion Ha; contradiction.
  - inversion Ha; inversion Hb; subst. destruct (IH b x y r1 r2) as [-> [-> ->]]; auto.
Qed.
Lemma split_stop : forall l, Exists (fun c => ~ digit c) l -> exists u x v, l = u ++ x :: v /\ Forall digit u /\ ~ digit x.
Proof.
  induction l as [|c l IH]; intros H; [inversion H|]. destruct (digit_dec c) as [D|D].
  - destruct IH as [u [x [v [-> [H1 H2]]]]]; [inversion H; [contradiction|assumption]|]. exists (c :: u), x, v. auto.
  - exists [], c, l. auto.
Qed.
Lemma split_names : forall d d' mid (e e' : list ascii), Forall digit d -> Forall digit d' -> Exists (fun c => ~ digit c) mid -> d ++ mid ++ e = d' ++ mid ++ e' -> d = d' /\ e = e'.
Proof.
  intros d d' mid e e' H H' Hm E. destruct (split_stop mid Hm) as [u [x [v [-> [Hu Hx]]]]]. rewrite <- !app_assoc in E. cbn in E. rewrite !app_assoc in E.
  apply first_stop in E; auto using Forall_app; [|apply Forall_app; auto|apply Forall_app; auto]. destruct E as [E1 [_ E2]]. apply app_inv_tail in E1. apply app_inv_head in E2. auto.
Qed.
Lemma step_text_inj : forall n n', step_text n = step_text n' -> n = n' \/ (n < 0 /\ n' < 0).
Proof.
  intros n n' H. unfold step_text in H. destruct (Z.ltb_spec n 0), (Z.ltb_spec n' 0); auto.
  - exfalso. destruct (decimal_digits n' ltac:(lia)) as [D _]. rewrite <- H in D. inversion D as [|? ? D1 _]. unfold digit in D1. cbn in D1. lia.
  - exfalso. destruct (decimal_digits n ltac:(lia)) as [D _]. rewrite H in D. inversion D as [|? ? D1 _]. unfold digit in D1. cbn in D1. lia.
  - left. apply decimal_inj. exact H.
Qed.
Lemma names_distinct : forall s mid rank rank' n n', between s mid -> Exists (fun c => ~ digit c) (chars mid) -> 0 <= rank -> 0 <= rank' ->
  parsed_file_name false s rank n = parsed_file_name false s rank' n' -> rank = rank' /\ (n = n' \/ (n < 0 /\ n' < 0)).
Proof.
  intros s mid rank rank' n n' B X Hr Hr' E. destruct (name_parts s mid B) as [pre [post [sw N]]]. rewrite !N in E by assumption. apply (f_equal chars) in E. rewrite !chars_app in E. apply app_inv_head in E. rewrite !app_assoc in E. apply app_inv_tail in E. rewrite <- !app_assoc in E.
  destruct (decimal_digits rank Hr) as [D1 D2], (decimal_digits rank' Hr') as [D1' D2'].
  destruct sw.
  - assert (K : step_text n = step_text n' /\ decimal rank = decimal rank').
    { unfold step_text in *. destruct (Z.ltb_spec n 0) as [L|L], (Z.ltb_spec n' 0) as [L'|L'].
      - split; [reflexivity|]. apply app_inv_head in E. apply app_inv_head in E. apply chars_inj. exact E.
      - exfalso. destruct (decimal_digits n' L') as [F1 F2]. destruct (chars (decimal n')) as [|c l]; [contradiction|]. inversion F1 as [|? ? F3 _]; subst. cbn in E. inversion E; subst. unfold digit in F3. cbn in F3. lia.
      - exfalso. destruct (decimal_digits n L) as [F1 F2]. destruct (chars (decimal n)) as [|c l]; [contradiction|]. inversion F1 as [|? ? F3 _]; subst. cbn in E. inversion E; subst. unfold digit in F3. cbn in F3. lia.
      - destruct (decimal_digits n L) as [F1 _], (decimal_digits n' L') as [F1' _]. apply split_names in E; auto. destruct E as [E1 E2]. apply chars_inj in E1. apply chars_inj in E2. auto. }
    destruct K as [K1 K2]. split; [apply decimal_inj; exact K2|apply step_text_inj; exact K1].
  - apply split_names in E; auto. destruct E as [E1 E2]. apply chars_inj in E1. apply chars_inj in E2. split; [apply decimal_inj; exact E1|apply step_text_inj; exact E2].
Qed.
Lemma names_collide : forall s mid, between s mid -> Forall digit (chars mid) ->
  exists rank n rank' n', 0 <= rank /\ 0 <= n /\ 0 <= rank' /\ 0 <= n' /\ rank <> rank' /\ n <> n' /\ parsed_file_name false s rank n = parsed_file_name false s rank' n'.
Proof.
  intros s mid B X. destruct (name_parts s mid B) as [pre [post [sw N]]].
  destruct (decimal_one EmptyString) as [a [Ha Ea]]; [constructor|].
  destruct (decimal_one (mid ++ "1")%string) as [b [Hb Eb]]; [rewrite chars_app; apply Forall_app; split; [exact X|constructor; [unfold digit; cbn; lia|constructor]]|].
  assert (D : a <> b) by (intros ->; rewrite Ea in Eb; inversion Eb as [Q]; destruct mid; discriminate).
  exists a, b, b, a. repeat split; auto. rewrite !N by assumption. assert (Sa : step_text a = decimal a) by (unfold step_text; destruct (Z.ltb_spec a 0); [lia|reflexivity]). assert (Sb : step_text b = decimal b) by (unfold step_text; destruct (Z.ltb_spec b 0); [lia|reflexivity]).
  rewrite Sa, Sb, Ea, Eb. destruct sw; cbn; rewrite ?app_assoc_s; cbn; reflexivity.
Qed.
(** With parallel output all processes share the files; different outputs still differ. *)
Lemma names_parallel : forall s pre post rank rank' n n', place_holder "t" s pre post -> parsed_file_name true s rank n = parsed_file_name true s rank' n' -> n = n' \/ (n < 0 /\ n' < 0).
Proof.
  intros s pre post rank rank' n n' H E. apply free_holder in H; [|discriminate]. destruct H as [-> F]. unfold parsed_file_name in E. fold (step_text n) (step_text n') in E. rewrite !replace_free in E by (discriminate || exact F).
  apply (f_equal chars) in E. rewrite !chars_app in E. apply app_inv_head in E. apply app_inv_tail in E. apply chars_inj in E. apply step_text_inj. exact E.
Qed.
