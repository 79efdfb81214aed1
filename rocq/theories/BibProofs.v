(** Proofs: BibTeX reads what the manager writes. *)
From Coq Require Import List Bool String Ascii Arith Lia.
From Verif Require Import LitModel LitSpec LitProofs BibSpec.
Import ListNotations.
Local Open Scope string_scope.

Lemma read_app a : forall s b, read_from s (a ++ b) =
  let (s1, l1) := read_from s a in let (s2, l2) := read_from s1 b in (s2, (l1 ++ l2)%list).
Proof.
  induction a as [|c a IH]; intros s b; cbn [append read_from].
  - destruct (read_from s b); reflexivity.
  - destruct (read_char s c) as [s1 l1]. rewrite IH. destruct (read_from s1 a) as [s2 l2]. destruct (read_from s2 b) as [s3 l3]. rewrite app_assoc. reflexivity.
Qed.
Lemma read_then a b s s1 : read_from s a = (s1, []) -> read_from s (a ++ b) = read_from s1 b.
Proof. intros E. rewrite read_app, E. destruct (read_from s1 b); reflexivity. Qed.
Lemma snoc_app s c t : snoc s c ++ t = s ++ String c t.
Proof. unfold snoc. rewrite app_assoc_s. reflexivity. Qed.
Lemma read_value e n v : forall d acc, balanced_from d v -> read_from (InValue e n d acc) v = (InValue e n 0 (acc ++ v), []).
Proof.
  induction v as [|c v IH]; intros d acc H; cbn [balanced_from read_from read_char] in *.
  - subst d. rewrite app_nil_s. reflexivity.
  - destruct (Ascii.eqb c "{"); [rewrite (IH _ _ H), snoc_app; reflexivity|].
    destruct (Ascii.eqb c "}"); [destruct d; [destruct H|]|]; rewrite (IH _ _ H), snoc_app; reflexivity.
Qed.
Lemma read_key k key : forall acc, plain key -> read_from (InKey k acc) key = (InKey k (acc ++ key), []).
Proof.
  induction key as [|c key IH]; intros acc H; cbn [plain read_from read_char] in *; [rewrite app_nil_s; reflexivity|].
  destruct H as (H1 & H2 & H3 & H). rewrite H1. apply Ascii.eqb_neq in H2, H3. rewrite H2, H3, (IH _ H), snoc_app. reflexivity.
Qed.
(** Words that read as themselves. *)
Lemma read_kind k t : read_from (InKind "") (kind_name k ++ "{" ++ t) = read_from (InKey (kind_name k) "") t.
Proof. destruct k; cbn -[read_from]; repeat (cbn [read_from]; cbn [read_char white no_name existsb Ascii.eqb Bool.eqb orb andb snoc append]); destruct (read_from _ t); reflexivity. Qed.
Lemma read_name e f t : read_from (BeforeName e) (newline ++ "  " ++ field_name f ++ "={" ++ t) = read_from (InValue e (field_name f) 0 "") t.
Proof. destruct f; cbn -[read_from]; repeat (cbn [read_from]; cbn [read_char white no_name existsb Ascii.eqb Bool.eqb orb andb snoc append]); destruct (read_from _ t); reflexivity. Qed.
Lemma read_fields fields : forall e t, (forall n v, In (n, v) fields -> (exists f, n = field_name f) /\ balanced v) ->
  read_from (AfterValue e) (fold_right (fun x rest => "," ++ newline ++ "  " ++ fst x ++ "={" ++ snd x ++ "}" ++ rest) t fields) =
  read_from (AfterValue (mkEntry (e_kind e) (e_key e) (e_fields e ++ fields))) t.
Proof.
  induction fields as [|[n v] fields IH]; intros e t H; cbn [fold_right fst snd].
  - rewrite app_nil_r. destruct e; reflexivity.
  - destruct (H n v (or_introl eq_refl)) as ((f & ->) & B).
    transitivity (read_from (BeforeName e) (newline ++ "  " ++ field_name f ++ "={" ++ (v ++ "}" ++ fold_right (fun x rest => "," ++ newline ++ "  " ++ fst x ++ "={" ++ snd x ++ "}" ++ rest) t fields))).
    { cbn [append read_from]. cbn [read_char white Ascii.eqb Bool.eqb orb andb]. destruct (read_from (BeforeName e) _); reflexivity. }
    rewrite read_name, (read_then _ _ _ _ (read_value e (field_name f) v 0 "" B)). cbn [append read_from]. cbn [read_char Ascii.eqb Bool.eqb].
    rewrite IH by (intros n' v' I; apply H; right; exact I). cbn [with_field e_kind e_key e_fields]. rewrite <- app_assoc. cbn [app].
    destruct (read_from _ t); reflexivity.
Qed.
Lemma read_entry r fields t : citation_key (bib_key r) -> (forall n v, In (n, v) fields -> (exists f, n = field_name f) /\ balanced v) ->
  read_from Outside (entry_text (kind_name (publ r)) (bib_key r) fields ++ t) =
  let (s, l) := read_from Outside t in (s, mkEntry (kind_name (publ r)) (bib_key r) fields :: l).
Proof.
  intros (K1 & K2) H. unfold entry_text. rewrite !app_assoc_s. cbn [append read_from]. cbn [read_char Ascii.eqb Bool.eqb].
  set (body := fold_right _ _ fields).
  assert (E : read_from (InKind "") (kind_name (publ r) ++ String "{" (bib_key r ++ body ++ t)) =
    let (s, l) := read_from Outside t in (s, mkEntry (kind_name (publ r)) (bib_key r) fields :: l)).
  { change (String "{" ?x) with ("{" ++ x). rewrite read_kind. rewrite (read_then _ _ _ _ (read_key (kind_name (publ r)) (bib_key r) "" K2)). cbn [append].
    assert (F : forall fs, read_from (InKey (kind_name (publ r)) (bib_key r)) (fold_right (fun x rest => "," ++ newline ++ "  " ++ fst x ++ "={" ++ snd x ++ "}" ++ rest) (newline ++ "}" ++ newline ++ newline) fs ++ t) =
      read_from (AfterValue (mkEntry (kind_name (publ r)) (bib_key r) [])) (fold_right (fun x rest => "," ++ newline ++ "  " ++ fst x ++ "={" ++ snd x ++ "}" ++ rest) (newline ++ "}" ++ newline ++ newline) fs ++ t)).
    { intros [|x fs]; cbn [fold_right append newline read_from]; cbn [read_char white Ascii.eqb Bool.eqb orb andb]; [|reflexivity].
      destruct (String.eqb_spec (bib_key r) ""); [contradiction|]. reflexivity. }
    unfold body. rewrite F.
    assert (G : forall fs u, fold_right (fun x rest => "," ++ newline ++ "  " ++ fst x ++ "={" ++ snd x ++ "}" ++ rest) u fs ++ t =
      fold_right (fun x rest => "," ++ newline ++ "  " ++ fst x ++ "={" ++ snd x ++ "}" ++ rest) (u ++ t) fs).
    { induction fs as [|x fs IH]; intros u; cbn [fold_right]; [reflexivity|]. rewrite !app_assoc_s, IH. reflexivity. }
    rewrite G, (read_fields fields _ _ H). cbn [e_kind e_key e_fields app append newline read_from]. cbn [read_char white Ascii.eqb Bool.eqb orb andb].
    destruct (read_from Outside t); reflexivity. }
  rewrite E. destruct (read_from Outside t); reflexivity.
Qed.
Lemma read_joined refs texts : Forall2 entry_of refs texts ->
  Forall (fun r => citation_key (bib_key r) /\ forall f, balanced (get r f)) refs ->
  exists es, read_from Outside (joined texts) = (Outside, es) /\ Forall2 holds refs es.
Proof.
  induction 1 as [|r t refs texts (fields & -> & N & F) H IH]; intros G; cbn [joined fold_right].
  - exists []. split; [reflexivity|constructor].
  - inversion G as [|? ? (G1 & G2) G3]; subst. destruct (IH G3) as (es & E & P). exists (mkEntry (kind_name (publ r)) (bib_key r) fields :: es).
    rewrite read_entry; [|exact G1|].
    + change (fold_right _ "" texts) with (joined texts). cbn [append newline read_from]. cbn [read_char Ascii.eqb Bool.eqb]. rewrite E. cbn [app]. split; [reflexivity|].
      constructor; [|exact P]. split; [reflexivity|]. split; [reflexivity|]. split; [exact N|]. exact F.
    + intros n v I. apply F in I. destruct I as (f & -> & <- & _). split; [exists f; reflexivity|apply G2].
Qed.
Lemma file_read l : (forall d r, In (d, r) l -> citation_key (bib_key r) /\ forall f, balanced (get r f)) -> exists refs es,
  read_bibtex (write_bibtex (after_calls l)) = Some es /\ Forall2 holds refs es /\ ascending (map bib_key refs) /\
  (forall k, In k (map bib_key refs) <-> exists d r, In (d, r) (calls l) /\ bib_key r = k) /\
  forall r, In r refs -> first_with (calls l) (bib_key r) r.
Proof.
  intros G. destruct (bibliography l) as (refs & texts & E & F & A & K & W).
  destruct (read_joined refs texts F) as (es & R & P).
  { apply Forall_forall. intros r I. destruct (W r I) as (bf & d & af & C & _ & _).
    assert (J : In (d, r) (calls l)) by (rewrite C; apply in_or_app; right; left; reflexivity).
    destruct J as [J|J]; [injection J as _ <-|exact (G _ _ J)].
    split; [split; [discriminate|cbn; intuition discriminate]|]. intros f. destruct f; cbn; reflexivity. }
  exists refs, es. split; [unfold read_bibtex; rewrite E, R; reflexivity|]. auto.
Qed.

(** ** Examples *)
Definition ref_good : reference := construct book "Doe2020" (fun f => match f with Author => "Doe, J." | Title => "The {R}ocq {{B}}ook" | _ => "" end).
Definition ref_key : reference := construct misc "Doe, 2020" (fun f => match f with Author => "Doe" | _ => "" end).
Definition ref_open : reference := construct misc "A" (fun f => match f with Author => "Doe" | Note => "a { brace" | _ => "" end).
Definition ref_closed : reference := construct misc "A" (fun f => match f with Author => "Doe" | Title => "a }, key={ brace" | Note => "n" | _ => "" end).
Lemma good_file : (forall d r, In (d, r) [("a book", ref_good)] -> citation_key (bib_key r) /\ forall f, balanced (get r f)) /\
  option_map (map (fun e => (e_kind e, e_key e, hd ("", "") (e_fields e)))) (read_bibtex (write_bibtex (after_calls [("a book", ref_good)]))) =
    Some [("book", "Doe2020", ("author", "Doe, J.")); ("article", "Schmitz2018", ("author", "Schmitz, Holger"))].
Proof.
  split; [|vm_compute; reflexivity]. intros d r [E|[]]. injection E as <- <-. split; [split; [discriminate|cbn; intuition discriminate]|].
  intros f. destruct f; cbn; reflexivity.
Qed.
Lemma bad_files :
  read_bibtex (write_bibtex (after_calls [("d", ref_key)])) = None /\
  read_bibtex (write_bibtex (after_calls [("d", ref_open)])) = None /\
  option_map (map e_fields) (read_bibtex (print ref_closed)) =
    Some [[("author", "Doe"); ("title", "a "); ("key", " brace"); ("note", "n")]] /\ get ref_closed Key = "".
Proof. vm_compute. auto. Qed.
