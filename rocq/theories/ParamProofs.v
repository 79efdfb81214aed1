(** Proofs about array parameters. *)
From Coq Require Import ZArith List Bool String Ascii Lia.
From Verif Require Import ExprModel ExprSyntax DepModel DeckModel DeckSyntax DeckMeaning DeckSpec BlockModel BlockSpec BlockExamples TextSpec TextProofs ParamModel ParamSpec.
Import ListNotations.
Local Open Scope string_scope.

Lemma app_letter_inj a b c d : a ++ String c "" = b ++ String d "" -> a = b /\ c = d.
Proof.
  revert b. induction a as [|x a IH]; intros [|y b] E; cbn in E.
  - injection E as ->. split; reflexivity.
  - injection E as -> E. destruct b; discriminate.
  - injection E as -> E. destruct a; discriminate.
  - injection E as -> E. destruct (IH b E) as [-> ->]. split; reflexivity.
Qed.
Lemma get_some i s : (exists c, String.get i s = Some c) <-> i < String.length s.
Proof.
  revert i. induction s as [|a s IH]; intros i; cbn; [split; [intros [c E]; destruct i; discriminate|lia]|].
  destruct i; [split; [lia|eauto]|]. rewrite IH. lia.
Qed.
Lemma get_nth i s : String.get i s = nth_error (list_ascii_of_string s) i.
Proof. revert i. induction s as [|a s IH]; intros [|i]; cbn; auto. Qed.
Lemma component_fun name ext i n n' : component name ext i n -> component name ext i n' -> n = n'.
Proof. intros (c & E & ->) (c' & E' & ->). congruence. Qed.
Lemma component_inj name name' ext ext' i j n : NoDup (list_ascii_of_string ext) -> component name ext i n -> component name' ext' j n ->
  name = name' /\ (ext = ext' -> i = j).
Proof.
  intros D (c & E & ->) (c' & E' & Q). apply app_letter_inj in Q. destruct Q as [-> ->]. split; [reflexivity|]. intros <-.
  rewrite get_nth in E, E'. apply (proj1 (NoDup_nth_error _) D); [apply nth_error_Some; congruence|congruence].
Qed.

Section Proofs.
  Variable A : arith.

  Lemma scalar_kind_is p m d : kind_is A p m d (scalar_kind A p m d).
  Proof. destruct p, d; reflexivity. Qed.
  Lemma kind_is_fun p m d k k' : kind_is A p m d k -> kind_is A p m d k' -> k = k'.
  Proof. destruct p, d; cbn; congruence. Qed.
  Lemma default_of_is ds i : default_is A ds i (default_of A ds i).
  Proof. destruct ds; reflexivity. Qed.
  Lemma default_is_fun ds i d d' : default_is A ds i d -> default_is A ds i d' -> d = d'.
  Proof. destruct ds; cbn; congruence. Qed.

  Lemma array_loop_spec name ext p ds var : forall i, List.length var + i <= String.length ext ->
    forall n k, In (n, k) (array_loop A name ext p ds i var) <->
    exists j m d, nth_error var j = Some m /\ component name ext (i + j) n /\ default_is A ds (i + j) d /\ kind_is A p m d k.
  Proof.
    induction var as [|m0 var IH]; intros i L n k; cbn [array_loop In].
    { split; [intros []|]. intros (j & m & d & E & _). destruct j; discriminate. }
    cbn in L. rewrite (IH (S i)) by lia. split.
    - intros [E|(j & m & d & E & C & D & K)].
      + injection E as <- <-. exists 0, m0, (default_of A ds i). rewrite Nat.add_0_r. split; [reflexivity|].
        destruct (proj2 (get_some i ext) ltac:(lia)) as [c Ec]. split; [exists c; split; [exact Ec|rewrite Ec; reflexivity]|].
        split; [apply default_of_is|apply scalar_kind_is].
      + exists (S j), m, d. replace (i + S j) with (S i + j) by lia. auto.
    - intros (j & m & d & E & C & D & K). destruct j as [|j].
      + left. rewrite Nat.add_0_r in C, D. cbn in E. injection E as <-. destruct C as (c & Ec & ->). rewrite Ec.
        f_equal. rewrite <- (default_is_fun ds i _ _ D (default_of_is ds i)). apply (kind_is_fun p m0 d); [apply scalar_kind_is|exact K].
      + right. exists j, m, d. replace (S i + j) with (i + S j) by lia. auto.
  Qed.

  Lemma one_call_spec c l : one_call A c = Some l -> forall n k, In (n, k) l <-> registers_param A c n k.
  Proof.
    destruct c as [name m d p|name v|name var ds p ext]; cbn; intros E n k.
    - injection E as <-. cbn. split; [intros [Q|[]]; injection Q as <- <-; split; [reflexivity|apply scalar_kind_is]|].
      intros [-> K]. left. f_equal. apply (kind_is_fun p m d); [apply scalar_kind_is|exact K].
    - injection E as <-. cbn. split; [intros [Q|[]]; injection Q as <- <-; auto|]. intros [-> ->]. auto.
    - unfold add_array in E. destruct (Nat.leb_spec (List.length var) (String.length ext)) as [L|]; [|discriminate]. injection E as <-.
      apply (array_loop_spec name ext p ds var 0). lia.
  Qed.
  Lemma one_call_fails c : one_call A c = None <-> ~ enough_letters A c.
  Proof.
    destruct c as [name m d p|name v|name var ds p ext]; cbn; try (split; [discriminate|tauto]).
    unfold add_array. destruct (Nat.leb_spec (List.length var) (String.length ext)) as [L|L]; split; try discriminate; try tauto; lia.
  Qed.

  Lemma setup_spec calls : 
    (forall l, setup_calls A calls = Some l -> forall n k, In (n, k) l <-> exists c, In c calls /\ registers_param A c n k) /\
    (setup_calls A calls = None <-> exists c, In c calls /\ ~ enough_letters A c).
  Proof.
    induction calls as [|c calls [IH1 IH2]]; cbn [setup_calls].
    { split; [|split; [discriminate|intros (c & [] & _)]]. intros l E n k. injection E as <-. split; [intros []|intros (c & [] & _)]. }
    split.
    - intros l E n k. destruct (one_call A c) as [a|] eqn:Ea; [|discriminate]. destruct (setup_calls A calls) as [b|] eqn:Eb; [|discriminate].
      injection E as <-. rewrite in_app_iff, (one_call_spec c a Ea), (IH1 b eq_refl). split.
      + intros [H|(c' & I & H)]; [exists c; split; [left; reflexivity|exact H]|exists c'; split; [right; exact I|exact H]].
      + intros (c' & [<-|I] & H); [left; exact H|right; exists c'; auto].
    - destruct (one_call A c) as [a|] eqn:Ea.
      + destruct (setup_calls A calls) as [b|].
        * split; [discriminate|]. intros (c' & [<-|I] & H); [apply one_call_fails in H; congruence|]. discriminate (proj2 IH2 (ex_intro _ c' (conj I H))).
        * split; [|reflexivity]. intros _. destruct (proj1 IH2 eq_refl) as (c' & I & H). exists c'. split; [right; exact I|exact H].
      + split; [|reflexivity]. intros _. exists c. split; [left; reflexivity|]. apply one_call_fails. exact Ea.
  Qed.

  (** Distinct names. *)
  Lemma array_loop_fst name ext p ds var : forall i, List.length var + i <= String.length ext ->
    forall j n, nth_error (map fst (array_loop A name ext p ds i var)) j = Some n -> component name ext (i + j) n.
  Proof.
    induction var as [|m0 var IH]; intros i L j n E; [destruct j; discriminate|]. cbn in L. cbn [array_loop map] in E. destruct j as [|j].
    - cbn in E. injection E as <-. rewrite Nat.add_0_r. destruct (proj2 (get_some i ext) ltac:(lia)) as [c Ec]. exists c. split; [exact Ec|]. rewrite Ec. reflexivity.
    - replace (i + S j) with (S i + j) by lia. apply IH; [lia|exact E].
  Qed.
  Lemma setup_names calls l : setup_calls A calls = Some l -> different_names A calls -> NoDup (map fst l).
  Proof.
    revert l. induction calls as [|c calls IH]; intros l E (D1 & D2 & D3); cbn [setup_calls] in E; [injection E as <-; constructor|].
    destruct (one_call A c) as [a|] eqn:Ea; [|discriminate]. destruct (setup_calls A calls) as [b|] eqn:Eb; [|discriminate].
    injection E as <-. rewrite map_app.
    assert (Hb : NoDup (map fst b)).
    { apply IH; [reflexivity|]. unfold scalar_names, array_names in D1, D2. cbn [flat_map] in D1, D2.
      split; [destruct c; cbn in D1; try (inversion D1; assumption); exact D1|].
      split; [destruct c; cbn in D2; try (inversion D2; assumption); exact D2|].
      intros name var ds p ext I. destruct (D3 name var ds p ext (or_intror I)) as [N H]. split; [exact N|]. intros i n C Q. apply (H i n C).
      unfold scalar_names. cbn [flat_map]. apply in_or_app. right. exact Q. }
    assert (Sub : forall n, In n (map fst b) -> In n (scalar_names A calls) \/
      exists name var ds p ext i, In (AddArrayParameter A name var ds p ext) calls /\ component name ext i n).
    { intros n I. apply in_map_iff in I. destruct I as ((n' & k) & <- & I). cbn [fst].
      apply (proj1 (setup_spec calls) b Eb) in I. destruct I as (c' & I & R). destruct c' as [nm m d p|nm v|nm var ds p ext]; cbn in R.
      - left. destruct R as [-> _]. unfold scalar_names. apply in_flat_map. exists (AddParameter A nm m d p). split; [exact I|left; reflexivity].
      - left. destruct R as [-> _]. unfold scalar_names. apply in_flat_map. exists (AddConstant A nm v). split; [exact I|left; reflexivity].
      - right. destruct R as (i & m & d & _ & C & _). exists nm, var, ds, p, ext, i. auto. }
    assert (Arr : forall name var ds p ext, In (AddArrayParameter A name var ds p ext) calls -> In name (array_names A calls)).
    { intros name var ds p ext I. unfold array_names. apply in_flat_map. exists (AddArrayParameter A name var ds p ext). split; [exact I|left; reflexivity]. }
    assert (J : forall x y : list string, NoDup x -> NoDup y -> (forall n, In n x -> ~ In n y) -> NoDup (x ++ y)).
    { clear. induction x as [|n x IH]; intros y Nx Ny H; [exact Ny|]. inversion Nx; subst. cbn. constructor.
      - rewrite in_app_iff. intros [Q|Q]; [contradiction|]. apply (H n (or_introl eq_refl) Q).
      - apply IH; [assumption|assumption|]. intros m I. apply H. right. exact I. }
    apply J; [|exact Hb|].
    - destruct c as [nm m d p|nm v|nm var ds p ext]; cbn in Ea.
      + injection Ea as <-. cbn. constructor; [intros []|constructor].
      + injection Ea as <-. cbn. constructor; [intros []|constructor].
      + unfold add_array in Ea. destruct (Nat.leb_spec (List.length var) (String.length ext)) as [L|]; [|discriminate]. injection Ea as <-.
        destruct (D3 nm var ds p ext (or_introl eq_refl)) as [N _].
        apply NoDup_nth_error. intros i j Hi Q. 
        destruct (nth_error (map fst (array_loop A nm ext p ds 0 var)) i) as [n|] eqn:Ei; [|apply nth_error_Some in Hi; congruence].
        symmetry in Q. apply array_loop_fst in Ei; [|lia]. apply array_loop_fst in Q; [|lia].
        apply (proj2 (component_inj nm nm ext ext i j n N Ei Q) eq_refl).
    - intros n I Q. apply Sub in Q. destruct c as [nm m d p|nm v|nm var ds p ext]; cbn in Ea.
      + injection Ea as <-. destruct I as [<-|[]]. cbn in D1. inversion D1; subst. destruct Q as [Q|(name & var & ds & p' & ext & i & I & C)]; [contradiction|].
        destruct (D3 name var ds p' ext (or_intror I)) as [_ H]. apply (H i _ C). left. reflexivity.
      + injection Ea as <-. destruct I as [<-|[]]. cbn in D1. inversion D1; subst. destruct Q as [Q|(name & var & ds & p' & ext & i & I & C)]; [contradiction|].
        destruct (D3 name var ds p' ext (or_intror I)) as [_ H]. apply (H i _ C). left. reflexivity.
      + unfold add_array in Ea. destruct (Nat.leb_spec (List.length var) (String.length ext)) as [L|]; [|discriminate]. injection Ea as <-.
        destruct (D3 nm var ds p ext (or_introl eq_refl)) as [N H].
        apply In_nth_error in I. destruct I as [j Ej]. apply array_loop_fst in Ej; [|lia].
        destruct Q as [Q|(name & var' & ds' & p' & ext' & i & I & C)].
        * apply (H _ _ Ej). cbn. exact Q.
        * destruct (component_inj nm name ext ext' _ i n N Ej C) as [<- _]. cbn in D2. inversion D2; subst. apply Arr in I. contradiction.
  Qed.

  (** C++ fixes the types. *)
  Lemma setup_typed calls l : setup_calls A calls = Some l -> typed_calls A calls ->
    forall n k, In (n, k) l -> match k with Default _ m v | ReadOnly _ m (Some v) => type_of v = type_of m | _ => True end.
  Proof.
    intros E T n k I. apply (proj1 (setup_spec calls) l E) in I. destruct I as (c & I & R). specialize (T c I).
    destruct c as [nm m d p|nm v|nm var ds p ext]; cbn in R.
    - destruct R as [_ K]. destruct p, d; cbn in K; subst k; try exact Logic.I; exact T.
    - destruct R as [_ ->]. exact Logic.I.
    - destruct R as (i & m & d & E' & _ & D & K). destruct ds; cbn in D; subst d; destruct p; cbn in K.
      + subst k. exact Logic.I.
      + subst k. exact Logic.I.
      + destruct (nth_error ds i) eqn:Q; subst k; [|exact Logic.I]. exact (T i m v E' Q).
      + destruct (nth_error ds i) eqn:Q; subst k; [|exact Logic.I]. exact (T i m v E' Q).
      + subst k. apply T. eapply nth_error_In. exact E'.
      + subst k. apply T. eapply nth_error_In. exact E'.
  Qed.
End Proofs.

(** Classes given by their calls. *)
Section Classes.
  Variable A : arith.
  Variable reg : string -> option fsig.
  Variable funs : fsig -> list (value A) -> result (value A).
  Variable restricted : bool.
  Hypothesis F : typed_functions A funs.

  (** The class with name, permitted children and calls in [initParameters] ([None]: no
      implementation). *)
  Definition class_calls := list (string * (list string * option (list (setup_call A)))).
  Definition class_of (allowed : list string) (calls : option (list (setup_call A))) (c : class A) : Prop :=
    c_allowed A c = allowed /\
    match calls with
    | None => c_impl A c = None
    | Some l => exists ps, setup_calls A l = Some ps /\ c_impl A c = Some ps
    end.
  Definition classes_of (cs : class_calls) (classes : list (string * class A)) : Prop :=
    Forall2 (fun a b => fst a = fst b /\ class_of (fst (snd a)) (snd (snd a)) (snd b)) cs classes.

  Lemma classes_names cs classes : classes_of cs classes -> map fst cs = map fst classes.
  Proof. induction 1 as [|a b cs classes [E _] _ IH]; cbn; congruence. Qed.
  Lemma classes_in cs classes name c : classes_of cs classes -> In (name, c) classes ->
    exists allowed calls, In (name, (allowed, calls)) cs /\ class_of allowed calls c.
  Proof.
    induction 1 as [|[n [al ca]] [n' c'] cs classes [E K] _ IH]; intros I; [destruct I|]. cbn in E, K. subst n'. destruct I as [I|I].
    - injection I as -> ->. exists al, ca. split; [left; reflexivity|exact K].
    - destruct (IH I) as (al' & ca' & I' & K'). exists al', ca'. split; [right; exact I'|exact K'].
  Qed.

  Variable cs : class_calls.
  Variable classes : list (string * class A).
  Hypothesis H : classes_of cs classes.
  Hypothesis Once : NoDup (map fst cs).
  Hypothesis Calls : forall name allowed calls, In (name, (allowed, Some calls)) cs -> typed_calls A calls /\ different_names A calls.

  Lemma calls_typed : typed_classes A classes.
  Proof.
    intros name c l n k I E. destruct (classes_in cs classes name c H I) as (al & ca & I' & _ & K). destruct ca as [calls|]; [|congruence].
    destruct K as (ps & S & E'). rewrite E in E'. injection E' as ->. intros In'. 
    exact (setup_typed A calls ps S (proj1 (Calls _ _ _ I')) n k In').
  Qed.
  Lemma calls_distinct : distinct_params A classes.
  Proof.
    intros name c l I E. destruct (classes_in cs classes name c H I) as (al & ca & I' & _ & K). destruct ca as [calls|]; [|congruence].
    destruct K as (ps & S & E'). rewrite E in E'. injection E' as ->. exact (setup_names A calls ps S (proj2 (Calls _ _ _ I'))).
  Qed.
  Lemma once : NoDup (map fst classes).
  Proof. rewrite <- (classes_names cs classes H). exact Once. Qed.

  (** The components of an array in an accepted deck. *)
  Lemma array_components root rootclass text d : accepts A reg funs restricted text (new_deck A root rootclass classes) d ->
    forall i o allowed calls name var ds p ext j m,
    nth_error (d_objs d) i = Some o -> In (o_class o, (allowed, Some calls)) cs ->
    In (AddArrayParameter A name var ds p ext) calls -> nth_error var j = Some m ->
    exists n x c v k, component name ext j n /\ kind_is A p m (default_of A ds j) k /\
      binds A d i n x (Some c) /\ declares (d_blocks d) (o_vars o) n x /\ nth_error (d_vars d) x = Some v /\
      param_state A (d_mem d) k (Some c) v /\
      (p = ReadWrite -> forall d1, evaluate_all A funs i d = inr d1 -> ready A funs d v /\ nth_error (d_mem d1) c = Some (v_val v)) /\
      (p = OnlyRead -> forall d1, evaluate_all A funs i d = inr d1 -> nth_error (d_mem d1) c = nth_error (d_mem d) c).
  Proof.
    intros Ac i o al calls name var ds p ext j m Ho Hc Ha Hm.
    destruct (text_registered A reg funs restricted F classes once calls_typed root rootclass calls_distinct text d Ac i o Ho) as (c & l & Ic & El & Hn & Hp).
    destruct (classes_in cs classes _ c H Ic) as (al' & ca' & I' & _ & K).
    assert (Q : ca' = Some calls).
    { assert (U : forall (a b : list string * option (list (setup_call A))) n, In (n, a) cs -> In (n, b) cs -> a = b).
      { clear - Once. induction cs as [|[n' a'] cs' IH]; intros a b n Ia Ib; [destruct Ia|]. cbn in Once. inversion Once; subst.
        destruct Ia as [Ia|Ia], Ib as [Ib|Ib].
        - congruence.
        - injection Ia as -> ->. exfalso. apply H1. apply in_map_iff. exists (n, b). auto.
        - injection Ib as -> ->. exfalso. apply H1. apply in_map_iff. exists (n, a). auto.
        - eapply IH; eauto. }
      pose proof (U _ _ _ I' Hc) as E. congruence. }
    subst ca'. destruct K as (ps & S & E'). rewrite El in E'. injection E' as ->.
    set (k := scalar_kind A p m (default_of A ds j)).
    destruct (proj2 (get_some j ext)) as [ch Ech].
    { assert (L : enough_letters A (AddArrayParameter A name var ds p ext)).
      { destruct (Nat.le_gt_cases (List.length var) (String.length ext)) as [L|L]; [exact L|]. exfalso.
        assert (N : setup_calls A calls = None) by (apply (proj2 (setup_spec A calls)); exists (AddArrayParameter A name var ds p ext); split; [exact Ha|cbn; lia]). congruence. }
      cbn in L. assert (j < List.length var) by (apply nth_error_Some; congruence). lia. }
    assert (Ik : In (name ++ String ch "", k) ps).
    { apply (proj1 (setup_spec A calls) ps S). exists (AddArrayParameter A name var ds p ext). split; [exact Ha|].
      exists j, m, (default_of A ds j). split; [exact Hm|]. split; [exists ch; auto|]. split; [apply default_of_is|apply scalar_kind_is]. }
    destruct (Hp _ _ Ik) as (x & mo & v & B & D & V & P).
    assert (Mo : exists cell, mo = Some cell).
    { unfold k in P. destruct p, (default_of A ds j); cbn in P.
      - destruct P as (_ & _ & _ & cell & -> & _). eauto.
      - destruct P as (_ & _ & cell & -> & _). eauto.
      - destruct P as (_ & _ & _ & cell & -> & _). eauto.
      - destruct P as (_ & _ & _ & cell & -> & _). eauto. }
    destruct Mo as [cell ->]. exists (name ++ String ch ""), x, cell, v, k.
    split; [exists ch; auto|]. split; [apply scalar_kind_is|]. split; [exact B|]. split; [exact D|]. split; [exact V|]. split; [exact P|].
    assert (Li : i < List.length (d_objs d)) by (apply nth_error_Some; congruence).
    pose proof (text_evaluated A reg funs restricted F classes once calls_typed root rootclass calls_distinct text d Ac i Li) as [Ev _].
    split.
    - intros -> d1 E1. destruct (Ev d1 E1) as (_ & Rc & _). apply (Rc (name ++ String ch "") v cell). exists i, x.
      split; [apply w_self; exact Li|]. split; [exact B|]. split; [exact V|]. unfold k in P. destruct (default_of A ds j); cbn in P; apply P.
    - intros -> d1 E1. destruct (Ev d1 E1) as (_ & _ & Rn). apply Rn. intros n' v' (i' & x' & W & B' & V' & Ro).
      destruct (fresh_run A reg funs restricted F classes calls_typed root rootclass text d Ac) as (prog & d0 & _ & Run & Fin & _).
      destruct (final_separate A reg funs restricted F classes once calls_typed calls_distinct root rootclass prog d0 d Run Fin i i' _ n' x x' cell B B') as (_ & _ & <-).
      rewrite V in V'. injection V' as <-. unfold k in P. cbn in P. destruct P as [Ro' _]. congruence.
  Qed.
End Classes.
