(** Proofs about bibliographies. *)
From Coq Require Import List Bool String Ascii Sorted OrderedType OrderedTypeEx.
From Verif Require Import LitModel LitSpec.
Import ListNotations.
Local Open Scope string_scope.

(** ** Constructors *)
Lemma construct_key : forall k key arg, bib_key (construct k key arg) = key /\ publ (construct k key arg) = k.
Proof. intros k key arg. destruct k; split; reflexivity. Qed.
Lemma constructed : forall k key arg f, ~ misplaced k f -> f <> Edition \/ (k <> inproceedings /\ k <> proceedings /\ k <> mastersthesis /\ k <> phdthesis) ->
  get (construct k key arg) f = if existsb (field_beq f) (params k) then arg f else "".
Proof.
  intros k key arg f Hm He. destruct k, f; try reflexivity; try (exfalso; apply Hm; exact I); exfalso; destruct He as [He|[H1 [H2 [H3 H4]]]]; congruence.
Qed.
Lemma argument_kept : forall k key arg f, In f (params k) -> ~ misplaced k f -> get (construct k key arg) f = arg f.
Proof.
  intros k key arg f Hf Hm. assert (E : existsb (field_beq f) (params k) = true).
  { apply existsb_exists. exists f. split; [exact Hf|]. destruct f; reflexivity. }
  rewrite constructed; [rewrite E; reflexivity|exact Hm|].
  destruct k; try (right; repeat split; discriminate); left; intros ->; cbn in Hf; repeat destruct Hf as [Hf|Hf]; try discriminate; contradiction.
Qed.
Lemma argument_misplaced : forall k f, misplaced k f -> In f (params k) /\ forall key arg, get (construct k key arg) f = "" /\
  get (construct k key arg) Edition = match k with manual => arg Edition | _ => arg f end.
Proof. intros k f H. destruct k, f; cbn in H; try contradiction; (split; [cbn; tauto|]); intros key arg; split; reflexivity. Qed.

(** ** Entries *)
Lemma printed_names : map (fun x => (fst x, snd x)) printed = map (fun x => (fst x, field_name (fst x))) printed.
Proof. reflexivity. Qed.
Lemma printed_all : NoDup (map fst printed) /\ forall f, In f (map fst printed).
Proof. split; [cbn; repeat constructor; cbn; intuition discriminate|]. intros f. destruct f; cbn; tauto. Qed.
Lemma app_assoc_s : forall a b c : string, (a ++ b) ++ c = a ++ (b ++ c).
Proof. induction a as [|x a IH]; intros b c; cbn; [reflexivity|]. rewrite IH. reflexivity. Qed.
Lemma app_nil_s : forall a : string, a ++ "" = a.
Proof. induction a as [|x a IH]; cbn; [reflexivity|]. rewrite IH. reflexivity. Qed.
Lemma concat_cons : forall x l, String.concat "" (x :: l) = x ++ String.concat "" l.
Proof. intros x [|y l]; cbn [String.concat]; [rewrite app_nil_s; reflexivity|reflexivity]. Qed.
Lemma lines : forall r l rest, String.concat "" (map (fun x => line r (fst x) (snd x)) l) ++ rest =
  fold_right (fun x rest => "," ++ newline ++ "  " ++ fst x ++ "={" ++ snd x ++ "}" ++ rest) rest
    (map (fun x => (snd x, get r (fst x))) (filter (fun x => negb (String.eqb (get r (fst x)) "")) l)).
Proof.
  intros r l rest. induction l as [|[f n] l IH]; [reflexivity|]. cbn [map]. rewrite concat_cons. unfold line at 1. cbn [fst snd filter].
  destruct (String.eqb (get r f) ""); cbn [negb]; [exact IH|]. cbn [map fold_right fst snd]. rewrite <- IH. rewrite !app_assoc_s. reflexivity.
Qed.
Lemma printed_entry : forall r, exists fields, print r = entry_text (kind_string (publ r)) (bib_key r) fields /\ NoDup (map fst fields) /\
  forall n v, In (n, v) fields <-> exists f, n = field_name f /\ get r f = v /\ v <> "".
Proof.
  intros r. exists (map (fun x => (snd x, get r (fst x))) (filter (fun x => negb (String.eqb (get r (fst x)) "")) printed)). split.
  - unfold print, entry_text. rewrite lines. reflexivity.
  - split.
    + rewrite map_map. cbn [fst]. assert (N : NoDup (map snd printed)) by (cbn; repeat constructor; cbn; intuition discriminate).
      revert N. generalize printed. intros l. induction l as [|x l IH]; intros N; [constructor|]. cbn [map] in N. inversion N as [|? ? N1 N2]; subst. cbn [filter].
      destruct (negb _); [|auto]. cbn [map]. constructor; [|auto]. intros Hi. apply N1. apply in_map_iff in Hi. destruct Hi as [y [E Hy]]. apply filter_In in Hy. apply in_map_iff. exists y. tauto.
    + intros n v. rewrite in_map_iff. split.
      * intros [[g m] [E H]]. apply filter_In in H. destruct H as [H1 H2]. cbn [fst snd] in *. injection E as E1 E2. exists g. split; [|split; [exact E2|]].
        -- rewrite <- E1. clear - H1. cbn in H1. repeat destruct H1 as [H1|H1]; try contradiction; injection H1 as <- <-; reflexivity.
        -- intros ->. rewrite E2 in H2. discriminate.
      * intros [f [-> [E H]]]. exists (f, field_name f). cbn [fst snd]. split; [congruence|]. apply filter_In. split.
        -- destruct f; cbn; tauto.
        -- cbn [fst]. rewrite E. destruct (String.eqb_spec v "") as [->|_]; [congruence|reflexivity].
Qed.

(** ** The manager *)
Lemma compare_eq : forall a b, String.compare a b = Eq <-> a = b.
Proof. intros a b. split; [apply String.compare_eq_iff|]. intros <-. induction a as [|x a IH]; [reflexivity|]. cbn. replace (Ascii.compare x x) with Eq; [exact IH|]. unfold Ascii.compare. symmetry. apply BinNat.N.compare_refl. Qed.
Lemma compare_antisym : forall a b, String.compare a b = CompOpp (String.compare b a).
Proof. exact String.compare_antisym. Qed.
Lemma compare_refl : forall a, String.compare a a = Eq.
Proof. intros a. apply compare_eq. reflexivity. Qed.
Lemma ascii_trans : forall a b c, Ascii.compare a b = Lt -> Ascii.compare b c = Lt -> Ascii.compare a c = Lt.
Proof. intros a b c. unfold Ascii.compare. rewrite !BinNat.N.compare_lt_iff. apply BinNat.N.lt_trans. Qed.
Lemma ascii_eq : forall a b, Ascii.compare a b = Eq -> a = b.
Proof. intros a b. apply Ascii.compare_eq_iff. Qed.
Lemma compare_trans : forall a b c, String.compare a b = Lt -> String.compare b c = Lt -> String.compare a c = Lt.
Proof.
  induction a as [|x a IH]; intros [|y b] [|z c]; cbn; intros H1 H2; try discriminate; try reflexivity.
  destruct (Ascii.compare x y) eqn:E1; try discriminate.
  - apply ascii_eq in E1. subst y. destruct (Ascii.compare x z) eqn:E2; try discriminate; [|reflexivity]. eapply IH; eauto.
  - destruct (Ascii.compare y z) eqn:E2; try discriminate.
    + apply ascii_eq in E2. subst z. rewrite E1. reflexivity.
    + rewrite (ascii_trans _ _ _ E1 E2). reflexivity.
Qed.
Lemma gt_lt : forall a b, String.compare a b = Gt -> String.compare b a = Lt.
Proof. intros a b H. rewrite compare_antisym, H. reflexivity. Qed.

Lemma insert_in : forall x l y, In y (insert x l) <-> y = x \/ In y l.
Proof.
  intros x l y. induction l as [|z l IH]; cbn [insert In]; [split; intros [H|H]; auto|]. destruct (String.compare x z) eqn:E; cbn [In].
  - apply compare_eq in E. subst z. intuition.
  - intuition.
  - rewrite IH. intuition.
Qed.
Lemma insert_ascending : forall x l, ascending l -> ascending (insert x l).
Proof.
  intros x l H. induction H as [|z l Hl IH Hz]; cbn [insert]; [repeat constructor|]. destruct (String.compare x z) eqn:E.
  - constructor; assumption.
  - constructor; [constructor; assumption|]. constructor; [exact E|]. eapply Forall_impl; [|exact Hz]. intros a. apply compare_trans. exact E.
  - constructor; [exact IH|]. apply Forall_forall. intros y Hy. apply insert_in in Hy. destruct Hy as [->|Hy]; [apply gt_lt; exact E|]. rewrite Forall_forall in Hz. apply Hz. exact Hy.
Qed.

(** The records are those of the calls. *)
Record good (l : list (string * reference)) (rs : records) : Prop := mkGood {
  good_asc : ascending (map fst rs);
  good_keys : forall k, In k (map fst rs) <-> exists x, In x l /\ bib_key (snd x) = k;
  good_rec : forall k ds r, In (k, (ds, r)) rs -> first_with l k r /\ ascending ds /\ forall d, In d ds <-> described l k d
}.
Lemma add_keys : forall d r rs k, In k (map fst (add_reference d r rs)) <-> k = bib_key r \/ In k (map fst rs).
Proof.
  intros d r rs k. induction rs as [|[k' [ds old]] rs IH]; cbn [add_reference]; [cbn; intuition|]. destruct (String.compare (bib_key r) k') eqn:E; cbn [map fst In].
  - apply compare_eq in E. subst k'. intuition.
  - intuition.
  - rewrite IH. intuition.
Qed.
Lemma add_ascending : forall d r rs, ascending (map fst rs) -> ascending (map fst (add_reference d r rs)).
Proof.
  intros d r rs. induction rs as [|[k' [ds old]] rs IH]; cbn [add_reference map fst]; intros H; [repeat constructor|]. inversion H as [|? ? Hl Hz]; subst. destruct (String.compare (bib_key r) k') eqn:E; cbn [map fst].
  - exact H.
  - constructor; [exact H|]. constructor; [exact E|]. eapply Forall_impl; [|exact Hz]. intros a. apply compare_trans. exact E.
  - constructor; [apply IH; exact Hl|]. apply Forall_forall. intros y Hy. apply add_keys in Hy. destruct Hy as [->|Hy]; [apply gt_lt; exact E|]. rewrite Forall_forall in Hz. apply Hz. exact Hy.
Qed.
Lemma asc_notin : forall rs k, ascending (k :: map fst rs) -> ~ In k (map fst (rs : records)).
Proof. intros rs k H Hi. inversion H as [|? ? _ Hz]; subst. rewrite Forall_forall in Hz. specialize (Hz k Hi). rewrite compare_refl in Hz. discriminate. Qed.
(** Which records there are afterwards. *)
Lemma add_records : forall d r rs, ascending (map fst rs) -> forall k ds q, In (k, (ds, q)) (add_reference d r rs) <->
  (k <> bib_key r /\ In (k, (ds, q)) rs) \/
  (k = bib_key r /\ ((~ In k (map fst rs) /\ ds = [d] /\ q = r) \/ exists ds0, In (k, (ds0, q)) rs /\ ds = insert d ds0)).
Proof.
  intros d r rs. induction rs as [|[k' [ds' old]] rs IH]; cbn [add_reference]; intros HA k ds q.
  - cbn. split.
    + intros [H|[]]. injection H as <- <- <-. right. split; [reflexivity|]. left. auto.
    + intros [[_ []]|[-> [[_ [-> ->]]|[ds0 [[] _]]]]]. left. reflexivity.
  - cbn [map fst] in HA. destruct (String.compare (bib_key r) k') eqn:E.
    + apply compare_eq in E. subst k'. pose proof (asc_notin _ _ HA) as N. cbn [In]. split.
      * intros [H|H]; [injection H as <- <- <-; right; split; [reflexivity|]; right; exists ds'; auto|].
        left. split; [|auto]. intros ->. apply N. apply in_map_iff. exists (bib_key r, (ds, q)). auto.
      * intros [[Hk [H|H]]|[-> [[Hn _]|[ds0 [[H|H] ->]]]]].
        -- injection H as Q _ _. congruence.
        -- right. exact H.
        -- exfalso. apply Hn. cbn. auto.
        -- injection H as -> ->. left. reflexivity.
        -- exfalso. apply N. apply in_map_iff. exists (bib_key r, (ds0, q)). auto.
    + assert (N : ~ In (bib_key r) (map fst ((k', (ds', old)) :: rs))).
      { cbn [map fst]. intros [->|Hi]; [rewrite compare_refl in E; discriminate|]. inversion HA as [|? ? _ Hz]; subst. rewrite Forall_forall in Hz. specialize (Hz _ Hi).
        pose proof (compare_trans _ _ _ E Hz) as Q. rewrite compare_refl in Q. discriminate. }
      split.
      * intros [H|H]; [injection H as <- <- <-; right; split; [reflexivity|]; left; auto|]. left. split; [|exact H]. intros ->. apply N. apply in_map_iff. exists (bib_key r, (ds, q)). auto.
      * intros [[Hk H]|[-> [[Hn [-> ->]]|[ds0 [H _]]]]]; [right; exact H|left; reflexivity|].
        exfalso. apply N. apply in_map_iff. exists (bib_key r, (ds0, q)). auto.
    + inversion HA as [|? ? HA' _]; subst. specialize (IH HA' k ds q). cbn [In]. rewrite IH. clear IH. assert (Hne : k' <> bib_key r) by (intros ->; rewrite compare_refl in E; discriminate). cbn [map fst In]. split.
      * intros [H|[[Hk H]|[-> [[Hn [-> ->]]|[ds0 [H ->]]]]]].
        -- injection H as <- <- <-. left. auto.
        -- left. auto.
        -- right. split; [reflexivity|]. left. split; [|auto]. intros [Q|Q]; auto.
        -- right. split; [reflexivity|]. right. exists ds0. auto.
      * intros [[Hk [H|H]]|[-> [[Hn [-> ->]]|[ds0 [[H|H] ->]]]]].
        -- left. exact H.
        -- right. left. auto.
        -- right. right. split; [reflexivity|]. left. split; [|auto]. intros Q. apply Hn. right. exact Q.
        -- injection H as Q _ _. congruence.
        -- right. right. split; [reflexivity|]. right. exists ds0. auto.
Qed.
Lemma first_snoc : forall l x k r, first_with l k r -> first_with (l ++ [x]) k r.
Proof. intros l x k r [bf [d [af [-> H]]]]. exists bf, d, (af ++ [x])%list. rewrite <- app_assoc. split; [reflexivity|exact H]. Qed.
Lemma good_add : forall l rs d r, good l rs -> good (l ++ [(d, r)]) (add_reference d r rs).
Proof.
  intros l rs d r [G1 G2 G3]. constructor.
  - apply add_ascending. exact G1.
  - intros k. rewrite add_keys, G2. split.
    + intros [->|[x [Hx E]]]; [exists (d, r); split; [apply in_or_app; right; left; reflexivity|reflexivity]|]. exists x. split; [apply in_or_app; auto|exact E].
    + intros [x [Hx E]]. apply in_app_or in Hx. destruct Hx as [Hx|[<-|[]]]; [right; eauto|left; cbn in E; auto].
  - intros k ds q H. apply add_records in H; [|exact G1]. destruct H as [[Hk H]|[-> [[Hn [-> ->]]|[ds0 [H ->]]]]].
    + destruct (G3 k ds q H) as [F [A D]]. split; [apply first_snoc; exact F|]. split; [exact A|]. intros d'. rewrite D. unfold described. split.
      * intros [r' [H1 H2]]. exists r'. split; [apply in_or_app; auto|exact H2].
      * intros [r' [H1 H2]]. apply in_app_or in H1. destruct H1 as [H1|[H1|[]]]; [eauto|]. injection H1 as _ <-. congruence.
    + assert (N : forall x, In x l -> bib_key (snd x) <> bib_key r) by (intros x Hx E; apply Hn; apply G2; eauto). split; [exists l, d, []; auto|]. split; [repeat constructor|]. intros d'. cbn [In]. unfold described. split.
      * intros [<-|[]]. exists r. split; [apply in_or_app; right; left; reflexivity|reflexivity].
      * intros [r' [H1 H2]]. apply in_app_or in H1. destruct H1 as [H1|[H1|[]]]; [exfalso; apply (N _ H1); exact H2|]. injection H1 as <- _. auto.
    + destruct (G3 _ ds0 q H) as [F [A D]]. split; [apply first_snoc; exact F|]. split; [apply insert_ascending; exact A|]. intros d'. rewrite insert_in, D. unfold described. split.
      * intros [->|[r' [H1 H2]]]; [exists r; split; [apply in_or_app; right; left; reflexivity|reflexivity]|]. exists r'. split; [apply in_or_app; auto|exact H2].
      * intros [r' [H1 H2]]. apply in_app_or in H1. destruct H1 as [H1|[H1|[]]]; [right; eauto|]. injection H1 as <- _. auto.
Qed.
Lemma good_calls : forall l, good (calls l) (after_calls l).
Proof.
  intros l. unfold after_calls. assert (G : good (calls []) new_manager).
  { assert (G0 : good [] []).
    { constructor; [constructor| |intros k ds r []]. intros k. split; [intros []|intros [x [[] _]]]. }
    apply (good_add [] [] schnek_description schnek_reference) in G0. exact G0. }
  revert G. assert (P : forall l pre rs, good pre rs -> good (pre ++ l) (fold_left (fun rs x => add_reference (fst x) (snd x) rs) l rs)).
  { clear. induction l as [|[d r] l IH]; intros pre rs G; [rewrite app_nil_r; exact G|]. cbn [fold_left fst snd]. replace (pre ++ (d, r) :: l)%list with ((pre ++ [(d, r)]) ++ l)%list by (rewrite <- app_assoc; reflexivity).
    apply IH. apply good_add. exact G. }
  intros G. apply (P l (calls []) new_manager G).
Qed.

(** ** What is written *)
Lemma written_entry : forall r, entry_of r (print r).
Proof.
  intros r. destruct (printed_entry r) as [fields [E H]]. exists fields. split; [|exact H]. rewrite E. destruct (publ r); reflexivity.
Qed.
Lemma concat_fold : forall (X : Type) (f : X -> string) l, String.concat "" (map f l) = fold_right (fun x rest => f x ++ rest) "" l.
Proof. intros X f l. induction l as [|x l IH]; [reflexivity|]. cbn [map]. rewrite concat_cons, IH. reflexivity. Qed.
Lemma bibtex_entries : forall rs, exists texts, write_bibtex rs = joined texts /\ Forall2 entry_of (map (fun x => snd (snd x)) rs) texts.
Proof.
  intros rs. exists (map (fun x => print (snd (snd x))) rs). split.
  - unfold write_bibtex. induction rs as [|x rs IH]; [reflexivity|]. cbn [map]. rewrite concat_cons, IH. cbn [joined fold_right]. apply app_assoc_s.
  - induction rs as [|x rs IH]; cbn [map]; constructor; [apply written_entry|exact IH].
Qed.
Lemma first_unique : forall l k r r', first_with l k r -> first_with l k r' -> r = r'.
Proof.
  intros l k r r' [bf [d [af [-> [K1 N1]]]]] [bf' [d' [af' [E [K2 N2]]]]]. revert bf' E N2. induction bf as [|x bf IH]; intros [|y bf'] E N2; cbn in E.
  - congruence.
  - injection E as E1 E2. exfalso. apply (N2 y); [left; reflexivity|]. rewrite <- E1. exact K1.
  - injection E as E1 E2. exfalso. apply (N1 x); [left; reflexivity|]. rewrite E1. exact K2.
  - injection E as _ E. apply (IH (fun z Hz => N1 z (or_intror Hz)) bf' E). intros z Hz. apply N2. right. exact Hz.
Qed.
Lemma bibliography : forall l, exists refs texts,
  write_bibtex (after_calls l) = joined texts /\ Forall2 entry_of refs texts /\ ascending (map bib_key refs) /\
  (forall k, In k (map bib_key refs) <-> exists d r, In (d, r) (calls l) /\ bib_key r = k) /\
  forall r, In r refs -> first_with (calls l) (bib_key r) r.
Proof.
  intros l. destruct (good_calls l) as [G1 G2 G3]. destruct (bibtex_entries (after_calls l)) as [texts [E F]].
  exists (map (fun x => snd (snd x)) (after_calls l)), texts.
  assert (K : map bib_key (map (fun x : string * (list string * reference) => snd (snd x)) (after_calls l)) = map fst (after_calls l)).
  { rewrite map_map. apply map_ext_in. intros [k [ds r]] H. destruct (G3 _ _ _ H) as [[bf [d [af [_ [Q _]]]]] _]. exact Q. }
  split; [exact E|]. split; [exact F|]. rewrite K. split; [exact G1|]. split.
  - intros k. rewrite G2. split; [intros [[d r] H]; exists d, r; exact H|intros [d [r H]]; exists (d, r); exact H].
  - intros r H. apply in_map_iff in H. destruct H as [[k [ds q]] [E1 H]]. cbn in E1. subst q. destruct (G3 _ _ _ H) as [Q _]. replace (bib_key r) with k; [exact Q|]. destruct Q as [bf [d [af [_ [Q _]]]]]. auto.
Qed.
Lemma items_text : forall (rs : records) rest, String.concat "" (map item rs) ++ rest =
  fold_right (fun x rest => "\item " ++ fold_right (fun d more => d ++ newline ++ more) ("\cite{" ++ fst x ++ "}" ++ newline ++ rest) (snd x)) rest
    (map (fun x => (fst x, fst (snd x))) rs).
Proof.
  intros rs rest. induction rs as [|[k [ds r]] rs IH]; [reflexivity|]. cbn [map]. rewrite concat_cons. cbn [fold_right fst snd]. rewrite app_assoc_s, IH. unfold item. cbn [fst snd]. rewrite !app_assoc_s. f_equal.
  change LitModel.newline with newline. clear. induction ds as [|d ds IH]; [reflexivity|]. cbn [map]. rewrite concat_cons. cbn [fold_right]. rewrite !app_assoc_s, IH. reflexivity.
Qed.
Lemma information : forall l title subtitle bibfile, exists items : list (string * list string),
  write_information title subtitle bibfile (after_calls l) = information_text title subtitle bibfile items /\
  ascending (map fst items) /\ (forall k, In k (map fst items) <-> exists d r, In (d, r) (calls l) /\ bib_key r = k) /\
  forall k ds, In (k, ds) items -> ascending ds /\ forall d, In d ds <-> described (calls l) k d.
Proof.
  intros l title subtitle bibfile. destruct (good_calls l) as [G1 G2 G3]. exists (map (fun x => (fst x, fst (snd x))) (after_calls l)).
  rewrite map_map. cbn [fst]. split; [|split; [exact G1|split]].
  - unfold write_information, information_text. rewrite items_text. reflexivity.
  - intros k. rewrite G2. split; [intros [[d r] H]; exists d, r; exact H|intros [d [r H]]; exists (d, r); exact H].
  - intros k ds H. apply in_map_iff in H. destruct H as [[k' [ds' q]] [E1 H]]. cbn in E1. injection E1 as <- <-. destruct (G3 _ _ _ H) as [_ Q]. exact Q.
Qed.
