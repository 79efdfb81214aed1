(** Proofs about files. *)
From Coq Require Import ZArith List Bool String Lia Permutation.
From Verif Require Import DiagModel DiagSpec FileModel FileSpec.
From Verif Require HdfModel.
Import ListNotations.
Local Open Scope Z_scope.

Lemma content_store {X} f g (x : X) fs : content f (store g x fs) = if String.eqb g f then Some x else content f fs.
Proof. unfold content, store. simpl. destruct (String.eqb g f); reflexivity. Qed.

Lemma writes_atb_spec interval n : interval <> 0 -> writes_atb interval n = true <-> writes_at interval n.
Proof.
  intros Hi. unfold writes_atb, writes_at. rewrite orb_true_iff, Z.ltb_lt, Z.eqb_eq. rewrite Z.mod_divide by exact Hi. tauto.
Qed.
Lemma rem_mod interval n : interval <> 0 -> (Z.rem n interval =? 0) = (n mod interval =? 0).
Proof.
  intros Hi. apply Bool.eq_iff_eq_true. rewrite !Z.eqb_eq. rewrite Z.rem_divide, Z.mod_divide by exact Hi. tauto.
Qed.
Lemma active_passes master c : active master c -> single c && negb master = false.
Proof. unfold active. destruct (single c), master; simpl; intuition congruence. Qed.

(** What an execution does. *)
Lemma execute_shape parallel master rank c interval n : interval <> 0 -> active master c ->
  execute_interval parallel master rank c interval n =
    Some ((if (0 =? n) && append c then [Open (fname c)] else []) ++ (if writes_atb interval n then output parallel rank c n else [])).
Proof.
  intros Hi Ha. unfold execute_interval. rewrite (active_passes _ _ Ha). unfold writes_atb.
  destruct (Z.ltb_spec n 0) as [H|H]; simpl.
  - reflexivity.
  - destruct (Z.eqb_spec interval 0) as [E|_]; [contradiction|]. rewrite rem_mod by exact Hi. destruct (n mod interval =? 0); [reflexivity|].
    rewrite app_nil_r. reflexivity.
Qed.

(** ** Text files that do not append *)
Section Each.
  Variable openable : string -> bool.
  Variable parallel master : bool.
  Variable rank : Z.
  Variable c : config.
  Variable interval : Z.
  Hypothesis Hi : interval <> 0.
  Hypothesis Ha : active master c.
  Hypothesis Hp : append c = false.
  Let name n := parsed_file_name parallel (fname c) rank n.

  Lemma each_step b fs n txt : exists b' fs', text_step openable parallel master rank c interval (mkOfs None b, fs) (n, txt) = Some (mkOfs None b', fs') /\
    forall f, content f fs' = if writes_atb interval n && String.eqb (name n) f && openable f then Some txt else content f fs.
  Proof.
    unfold text_step. cbn [fst snd]. rewrite execute_shape by assumption. rewrite Hp, andb_false_r. simpl ([] ++ _)%list.
    destruct (writes_atb interval n); simpl.
    - unfold output. rewrite Hp. cbn [app fold_left text_event]. unfold os_open at 1. cbn [os_file]. fold (name n).
      destruct (openable (name n)) eqn:O.
      + cbn [os_write os_file os_fail os_close]. eexists. eexists. split; [reflexivity|]. intros f. rewrite content_store.
        destruct (String.eqb_spec (name n) f) as [<-|N]; simpl.
        * rewrite O. rewrite content_store, String.eqb_refl. reflexivity.
        * rewrite content_store. destruct (String.eqb_spec (name n) f); [contradiction|reflexivity].
      + cbn [os_write os_file os_fail os_close]. eexists. eexists. split; [reflexivity|]. intros f.
        destruct (String.eqb_spec (name n) f) as [<-|N]; simpl; [rewrite O|]; reflexivity.
    - eexists. eexists. split; [reflexivity|]. reflexivity.
  Qed.
  Lemma each_steps steps : forall b fs, exists b' fs', text_steps openable parallel master rank c interval (mkOfs None b, fs) steps = Some (mkOfs None b', fs') /\
    (forall pre n txt post, steps = (pre ++ (n, txt) :: post)%list -> writes_at interval n -> openable (name n) = true ->
       (forall m t, In (m, t) post -> writes_at interval m -> name m <> name n) -> content (name n) fs' = Some txt) /\
    (forall f, (forall m t, In (m, t) steps -> writes_at interval m -> openable f = true -> name m <> f) -> content f fs' = content f fs).
  Proof.
    induction steps as [|[n txt] steps IH]; intros b fs; cbn [text_steps].
    - exists b, fs. split; [reflexivity|]. split; [intros [|? ?] ? ? ? E; discriminate|reflexivity].
    - destruct (each_step b fs n txt) as (b1 & fs1 & E1 & C1). rewrite E1. destruct (IH b1 fs1) as (b2 & fs2 & E2 & L2 & U2).
      exists b2, fs2. split; [exact E2|]. split.
      + intros [|p pre] n' txt' post E W O L; simpl in E.
        * injection E as <- <- <-. rewrite U2 by (intros m t I W' _; apply (L m t I W')). rewrite C1.
          apply writes_atb_spec in W; [|exact Hi]. rewrite W, String.eqb_refl, O. reflexivity.
        * injection E as <- E. apply (L2 pre n' txt' post E W O L).
      + intros f U. rewrite U2 by (intros m t I; apply (U m t); right; exact I). rewrite C1.
        destruct (writes_atb interval n) eqn:W; [|reflexivity]. destruct (String.eqb_spec (name n) f) as [N|N]; [|reflexivity].
        destruct (openable f) eqn:O; [|reflexivity]. exfalso. apply writes_atb_spec in W; [|exact Hi]. apply (U n txt (or_introl eq_refl) W eq_refl N).
  Qed.
End Each.

Lemma text_each openable parallel master rank c interval fs0 steps : interval <> 0 -> active master c -> append c = false ->
  exists fs, text_run openable parallel master rank c interval fs0 steps = Some fs /\
    (forall pre n txt post, steps = (pre ++ (n, txt) :: post)%list -> writes_at interval n ->
       openable (parsed_file_name parallel (fname c) rank n) = true ->
       (forall m t, In (m, t) post -> writes_at interval m -> parsed_file_name parallel (fname c) rank m <> parsed_file_name parallel (fname c) rank n) ->
       content (parsed_file_name parallel (fname c) rank n) fs = Some txt) /\
    (forall f, (forall m t, In (m, t) steps -> writes_at interval m -> openable f = true -> parsed_file_name parallel (fname c) rank m <> f) ->
       content f fs = content f fs0).
Proof.
  intros Hi Ha Hp. destruct (each_steps openable parallel master rank c interval Hi Ha Hp steps false fs0) as (b & fs & E & H).
  exists fs. unfold text_run. rewrite E. split; [reflexivity|exact H].
Qed.

(** ** Text files that append *)
Lemma app_assoc_s a b c : ((a ++ b) ++ c = a ++ (b ++ c))%string.
Proof. induction a; simpl; congruence. Qed.
Lemma app_nil_s a : (a ++ "" = a)%string.
Proof. induction a; simpl; congruence. Qed.

Section Append.
  Variable openable : string -> bool.
  Variable parallel master : bool.
  Variable rank : Z.
  Variable c : config.
  Variable interval : Z.
  Hypothesis Hi : interval <> 0.
  Hypothesis Ha : active master c.
  Hypothesis Hp : append c = true.

  Lemma append_step sf n txt : text_step openable parallel master rank c interval sf (n, txt) =
    let sf1 := if 0 =? n then os_open openable (fname c) (fst sf) (snd sf) else sf in
    Some (if writes_atb interval n then os_write txt (fst sf1) (snd sf1) else sf1).
  Proof.
    unfold text_step. cbn [fst snd]. rewrite execute_shape by assumption. unfold output. rewrite Hp, andb_true_r.
    destruct sf as [st fs]. destruct (0 =? n), (writes_atb interval n); cbn [app fold_left text_event fst snd]; try reflexivity.
    destruct (os_open openable (fname c) st fs). reflexivity.
  Qed.
  (** The file is open: everything is added. *)
  Lemma append_open steps : (forall n t, In (n, t) steps -> n <> 0) -> forall old fs, content (fname c) fs = Some old ->
    exists fs', text_steps openable parallel master rank c interval (mkOfs (Some (fname c)) false, fs) steps = Some (mkOfs (Some (fname c)) false, fs') /\
      forall f, content f fs' = if String.eqb (fname c) f then Some (old ++ all_texts interval steps)%string else content f fs.
  Proof.
    induction steps as [|[n txt] steps IH]; intros Hn old fs E.
    - exists fs. split; [reflexivity|]. intros f. destruct (String.eqb_spec (fname c) f) as [<-|N]; [|reflexivity]. simpl. rewrite app_nil_s. exact E.
    - cbn [text_steps]. rewrite append_step. destruct (Z.eqb_spec 0 n) as [Z0|_]; [exfalso; apply (Hn n txt); [left; reflexivity|lia]|].
      cbn [fst snd]. cbn [all_texts fold_right fst snd]. fold (all_texts interval steps).
      assert (Hn' : forall n t, In (n, t) steps -> n <> 0) by (intros m t I; apply (Hn m t); right; exact I).
      destruct (writes_atb interval n).
      + unfold os_write. cbn [os_file os_fail]. rewrite E. destruct (IH Hn' (old ++ txt)%string (store (fname c) (old ++ txt)%string fs)) as (fs' & E' & C').
        { rewrite content_store, String.eqb_refl. reflexivity. }
        exists fs'. split; [exact E'|]. intros f. rewrite C', content_store. destruct (String.eqb_spec (fname c) f); [rewrite app_assoc_s|]; reflexivity.
      + apply (IH Hn' old fs E).
  Qed.
  (** A failed stream, or a file that was never opened: nothing is written. *)
  Lemma append_failed f0 steps : forall fs, text_steps openable parallel master rank c interval (mkOfs (Some f0) true, fs) steps = Some (mkOfs (Some f0) true, fs).
  Proof.
    induction steps as [|[n txt] steps IH]; intros fs; [reflexivity|]. cbn [text_steps]. rewrite append_step. cbn [fst snd os_open os_file].
    destruct (0 =? n); cbn [fst snd]; destruct (writes_atb interval n); cbn [fst snd os_write os_file os_fail]; apply IH.
  Qed.
  Lemma append_unopened steps : (forall n t, In (n, t) steps -> n <> 0) -> forall b fs, exists b',
    text_steps openable parallel master rank c interval (mkOfs None b, fs) steps = Some (mkOfs None b', fs).
  Proof.
    induction steps as [|[n txt] steps IH]; intros Hn b fs; [exists b; reflexivity|]. cbn [text_steps]. rewrite append_step.
    destruct (Z.eqb_spec 0 n) as [Z0|_]; [exfalso; apply (Hn n txt); [left; reflexivity|lia]|].
    assert (Hn' : forall n t, In (n, t) steps -> n <> 0) by (intros m t I; apply (Hn m t); right; exact I).
    cbn [fst snd]. destruct (writes_atb interval n); cbn [os_write os_file]; apply (IH Hn').
  Qed.
  Lemma text_steps_app a b : forall sf, text_steps openable parallel master rank c interval sf (a ++ b) =
    match text_steps openable parallel master rank c interval sf a with Some sf' => text_steps openable parallel master rank c interval sf' b | None => None end.
  Proof.
    induction a as [|st a IH]; intros sf; [reflexivity|]. cbn [app text_steps]. destruct (text_step openable parallel master rank c interval sf st); [apply IH|reflexivity].
  Qed.
  Lemma writes_zero : writes_atb interval 0 = true.
  Proof using Hi. unfold writes_atb. rewrite Z.mod_0_l by exact Hi. reflexivity. Qed.
  Lemma append_first txt fs : openable (fname c) = true ->
    exists fs', text_step openable parallel master rank c interval (mkOfs None false, fs) (0, txt) = Some (mkOfs (Some (fname c)) false, fs') /\
      forall f, content f fs' = if String.eqb (fname c) f then Some txt else content f fs.
  Proof.
    intros O. rewrite append_step, writes_zero. change (0 =? 0) with true. cbv iota. unfold os_open. cbn [fst snd os_file]. rewrite O. cbn [fst snd os_write os_file os_fail].
    rewrite content_store, String.eqb_refl. eexists. split; [reflexivity|]. intros f. rewrite !content_store.
    destruct (String.eqb (fname c) f); reflexivity.
  Qed.
End Append.

Lemma text_append openable parallel master rank c interval fs0 t0 steps : interval <> 0 -> active master c -> append c = true ->
  openable (fname c) = true -> (forall n t, In (n, t) steps -> n <> 0) ->
  exists fs, text_run openable parallel master rank c interval fs0 ((0, t0) :: steps) = Some fs /\
    content (fname c) fs = Some (t0 ++ all_texts interval steps)%string /\ (forall f, f <> fname c -> content f fs = content f fs0).
Proof.
  intros Hi Ha Hp O Hn. destruct (append_first openable parallel master rank c interval Hi Ha Hp t0 fs0 O) as (fs1 & E1 & C1).
  destruct (append_open openable parallel master rank c interval Hi Ha Hp steps Hn t0 fs1) as (fs2 & E2 & C2).
  { rewrite C1, String.eqb_refl. reflexivity. }
  exists fs2. unfold text_run. cbn [text_steps]. rewrite E1, E2. split; [reflexivity|]. split.
  - rewrite C2, String.eqb_refl. reflexivity.
  - intros f N. rewrite C2, C1. destruct (String.eqb_spec (fname c) f); [congruence|reflexivity].
Qed.
Lemma text_append_late openable parallel master rank c interval fs0 steps : interval <> 0 -> active master c -> append c = true ->
  (forall n t, In (n, t) steps -> n <> 0) -> text_run openable parallel master rank c interval fs0 steps = Some fs0.
Proof.
  intros Hi Ha Hp Hn. destruct (append_unopened openable parallel master rank c interval Hi Ha Hp steps Hn false fs0) as (b & E).
  unfold text_run. rewrite E. reflexivity.
Qed.
Lemma text_append_twice openable parallel master rank c interval fs0 t0 mid t1 steps : interval <> 0 -> active master c -> append c = true ->
  openable (fname c) = true -> (forall n t, In (n, t) mid -> n <> 0) ->
  exists fs, text_run openable parallel master rank c interval fs0 ((0, t0) :: mid ++ (0, t1) :: steps) = Some fs /\
    content (fname c) fs = Some (t0 ++ all_texts interval mid)%string.
Proof.
  intros Hi Ha Hp O Hn. destruct (append_first openable parallel master rank c interval Hi Ha Hp t0 fs0 O) as (fs1 & E1 & C1).
  destruct (append_open openable parallel master rank c interval Hi Ha Hp mid Hn t0 fs1) as (fs2 & E2 & C2).
  { rewrite C1, String.eqb_refl. reflexivity. }
  exists fs2. unfold text_run. cbn [text_steps]. rewrite E1. rewrite text_steps_app by assumption. rewrite E2. cbn [text_steps].
  rewrite append_step by assumption. rewrite writes_zero by assumption. change (0 =? 0) with true. cbv iota. cbn [fst snd os_open os_file os_write os_fail].
  rewrite append_failed by assumption. split; [reflexivity|]. rewrite C2, String.eqb_refl. reflexivity.
Qed.

(** ** HDF files *)
Section Hdf.
  Context {D : Type}.
  Variable openable : string -> bool.
  Variable parallel master : bool.
  Variable rank : Z.
  Variable c : config.
  Variable interval : Z.
  Hypothesis Hi : interval <> 0.
  Hypothesis Ha : active master c.
  Let name n := parsed_file_name parallel (fname c) rank n.

  Lemma ev_open d f s l fs : openable f = true -> existsb (String.eqb f) l = false ->
    hdf_event openable d (HdfModel.Done (mkHdf None s l fs)) (Open f) = HdfModel.Done (mkHdf (D := D) (Some f) (HdfModel.opened s) l (store f [] fs)).
  Proof. intros O E. cbn [hdf_event HdfModel.io_bind]. unfold hdf_open. cbn [h_file h_lost h_stream h_files]. rewrite O, E. reflexivity. Qed.
  Lemma ev_write d f s l fs old : content f fs = Some old ->
    hdf_event openable d (HdfModel.Done (mkHdf (Some f) s l fs)) Write =
      match HdfModel.lookup "data" old with
      | Some _ => HdfModel.Abort
      | None => HdfModel.Done (mkHdf (D := D) (Some f) (HdfModel.mkStream "data" 1) l (store f (old ++ [("data"%string, d)]) fs))
      end.
  Proof. intros E. cbn [hdf_event HdfModel.io_bind]. unfold hdf_write. simpl. rewrite E. reflexivity. Qed.
  Lemma ev_close d f s l fs : hdf_event openable d (HdfModel.Done (mkHdf f s l fs)) Close = HdfModel.Done (mkHdf (D := D) None s l fs).
  Proof. reflexivity. Qed.

  Lemma hdf_each (steps : list (Z * D)) : append c = false -> forall s fs, (forall n d, In (n, d) steps -> writes_at interval n -> openable (name n) = true) ->
    exists s' fs', hdf_steps openable parallel master rank c interval (mkHdf None s [] fs) steps = HdfModel.Done (mkHdf None s' [] fs') /\
    (forall pre n d post, steps = (pre ++ (n, d) :: post)%list -> writes_at interval n ->
       (forall m t, In (m, t) post -> writes_at interval m -> name m <> name n) -> content (name n) fs' = Some [("data"%string, d)]) /\
    (forall f, (forall m t, In (m, t) steps -> writes_at interval m -> name m <> f) -> content f fs' = content f fs).
  Proof.
    intros Hp. induction steps as [|[n d] steps IH]; intros s fs O; cbn [hdf_steps].
    - exists s, fs. split; [reflexivity|]. split; [intros [|? ?] ? ? ? E; discriminate|reflexivity].
    - rewrite execute_shape by assumption. rewrite Hp, andb_false_r. simpl ([] ++ _)%list.
      assert (O' : forall n d, In (n, d) steps -> writes_at interval n -> openable (name n) = true) by (intros m t I; apply (O m t); right; exact I).
      destruct (writes_atb interval n) eqn:W.
      + assert (W' := proj1 (writes_atb_spec _ _ Hi) W). unfold output. rewrite Hp. cbn [app fold_left]. fold (name n).
        rewrite ev_open by (auto using (O n d (or_introl eq_refl) W')).
        rewrite (ev_write _ _ _ _ _ []) by (rewrite content_store, String.eqb_refl; reflexivity). cbn [HdfModel.lookup find option_map app].
        rewrite ev_close. cbn [HdfModel.io_bind].
        destruct (IH (HdfModel.mkStream "data" 1) (store (name n) [("data"%string, d)] (store (name n) [] fs)) O') as (s' & fs' & E & L & U).
        exists s', fs'. split; [exact E|]. split.
        * intros [|p pre] n' d' post E' Wn N; simpl in E'.
          -- injection E' as <- <- <-. rewrite U by (intros m t I; apply (N m t I)). rewrite content_store, String.eqb_refl. reflexivity.
          -- injection E' as <- E'. apply (L pre n' d' post E' Wn N).
        * intros f N. rewrite U by (intros m t I; apply (N m t); right; exact I). rewrite !content_store.
          destruct (String.eqb_spec (name n) f) as [B|B]; [exfalso; apply (N n d (or_introl eq_refl) W' B)|reflexivity].
      + cbn [fold_left HdfModel.io_bind]. destruct (IH s fs O') as (s' & fs' & E & L & U). exists s', fs'. split; [exact E|]. split.
        * intros [|p pre] n' d' post E' Wn N; simpl in E'.
          -- injection E' as <- <- <-. apply writes_atb_spec in Wn; [|exact Hi]. congruence.
          -- injection E' as <- E'. apply (L pre n' d' post E' Wn N).
        * intros f N. apply U. intros m t I. apply (N m t). right. exact I.
  Qed.

  Lemma hdf_silent (mid rest : list (Z * D)) h : (forall n d, In (n, d) mid -> n <> 0 /\ ~ writes_at interval n) ->
    hdf_steps openable parallel master rank c interval h (mid ++ rest) = hdf_steps openable parallel master rank c interval h rest.
  Proof.
    induction mid as [|[n d] mid IH]; intros H; [reflexivity|]. cbn [app hdf_steps]. rewrite execute_shape by assumption.
    destruct (H n d (or_introl eq_refl)) as [N W]. destruct (Z.eqb_spec 0 n) as [E|_]; [lia|]. cbn [andb].
    destruct (writes_atb interval n) eqn:B; [exfalso; apply W, writes_atb_spec; assumption|]. cbn [app fold_left HdfModel.io_bind].
    apply IH. intros m t I. apply (H m t). right. exact I.
  Qed.
  Lemma hdf_append (d0 : D) mid n d post fs : append c = true -> openable (fname c) = true ->
    (forall m t, In (m, t) mid -> m <> 0 /\ ~ writes_at interval m) -> writes_at interval n ->
    hdf_steps openable parallel master rank c interval (hdf_start fs) ((0, d0) :: mid ++ (n, d) :: post) = HdfModel.Abort.
  Proof.
    intros Hp O M W. cbn [hdf_steps]. rewrite execute_shape by assumption. rewrite writes_zero by assumption. unfold output. rewrite Hp. change (0 =? 0) with true.
    cbn [andb app fold_left]. unfold hdf_start. rewrite ev_open by auto.
    rewrite (ev_write _ _ _ _ _ []) by (rewrite content_store, String.eqb_refl; reflexivity). cbn [HdfModel.lookup find option_map app HdfModel.io_bind].
    rewrite hdf_silent by exact M. cbn [hdf_steps]. rewrite execute_shape by assumption. apply writes_atb_spec in W; [|exact Hi]. rewrite W. unfold output. rewrite Hp, andb_true_r.
    destruct (0 =? n); cbn [andb app fold_left].
    - cbn [hdf_event HdfModel.io_bind]. unfold hdf_open. cbn [h_file h_lost existsb]. rewrite String.eqb_refl. cbn [orb negb]. rewrite andb_false_r. reflexivity.
    - rewrite (ev_write _ _ _ _ _ [("data"%string, d0)]) by (rewrite content_store, String.eqb_refl; reflexivity). reflexivity.
  Qed.
End Hdf.

(** ** Handles *)
Local Open Scope nat_scope.
Definition sound (st : hstate) : Prop := Permutation (held st) (lib st) /\ NoDup (lib st) /\ bad st = 0.

Lemma held_put st i s o : object st i = Some s -> exists rest, Permutation (held st) (handle_of (Some s) ++ rest) /\ Permutation (flat_map handle_of (set_nth (objects st) i o)) (handle_of o ++ rest).
Proof.
  unfold object, held. generalize (objects st) as l. clear st. intros l. revert i. induction l as [|x l IH]; intros [|i] E; simpl in E; try discriminate.
  - destruct x as [s'|]; [|discriminate]. injection E as ->. exists (flat_map handle_of l). split; apply Permutation_refl.
  - destruct (IH i E) as (rest & P & Q). exists (handle_of x ++ rest). cbn [flat_map set_nth]. split.
    + rewrite P. rewrite !app_assoc. apply Permutation_app_tail, Permutation_app_comm.
    + rewrite Q. rewrite !app_assoc. apply Permutation_app_tail, Permutation_app_comm.
Qed.
Lemma nth_set st i s o : object st i = Some s -> nth_error (set_nth (objects st) i o) i = Some o.
Proof.
  unfold object. generalize (objects st) as l. intros l. revert i. induction l as [|x l IH]; intros [|i] E; simpl in *; try discriminate; [reflexivity|].
  apply IH, E.
Qed.
Lemma existsb_in h l : existsb (Nat.eqb h) l = true <-> In h l.
Proof.
  rewrite existsb_exists. split.
  - intros (x & I & E). apply Nat.eqb_eq in E. subst. exact I.
  - intros I. exists h. split; [exact I|apply Nat.eqb_refl].
Qed.
Lemma remove_perm h l rest : NoDup l -> Permutation (h :: rest) l -> Permutation rest (remove Nat.eq_dec h l) /\ NoDup (remove Nat.eq_dec h l).
Proof.
  intros N P. assert (R : Permutation (remove Nat.eq_dec h (h :: rest)) (remove Nat.eq_dec h l)).
  { clear N. induction P; simpl; auto.
    - destruct (Nat.eq_dec h x); auto.
    - destruct (Nat.eq_dec h y), (Nat.eq_dec h x); auto using perm_swap, Permutation_refl.
    - eapply Permutation_trans; eassumption. }
  pose proof (Permutation_NoDup (Permutation_sym P) N) as N'. inversion N' as [|? ? Hh Nr]; subst.
  simpl in R. destruct (Nat.eq_dec h h); [|congruence]. rewrite notin_remove in R by exact Hh. split; [exact R|]. apply (Permutation_NoDup R Nr).
Qed.

Lemma close_sound st i s : sound st -> object st i = Some s -> sound (close_stream st i s) /\ object (close_stream st i s) i = Some (mkStrm (s_kind s) None (s_active s)) /\
  (forall h, In h (lib (close_stream st i s)) -> In h (lib st)).
Proof.
  intros (P & N & B) O. destruct (held_put st i s (Some (mkStrm (s_kind s) None (s_active s))) O) as (rest & P1 & P2).
  assert (G : forall l b, object (mkState (set_nth (objects st) i (Some (mkStrm (s_kind s) None (s_active s)))) l b) i = Some (mkStrm (s_kind s) None (s_active s))).
  { intros l b. unfold object. cbn [objects]. rewrite (nth_set _ _ _ _ O). reflexivity. }
  unfold close_stream, put. simpl in P1. unfold handle_of in P1. destruct (s_file s) as [h|] eqn:F.
  - simpl in P1. assert (I : In h (lib st)) by (apply (Permutation_in _ P), (Permutation_in _ (Permutation_sym P1)); left; reflexivity).
    unfold h5close. rewrite (proj2 (existsb_in h (lib st)) I). cbn [objects lib bad].
    destruct (remove_perm h (lib st) rest N) as [R NR]. { rewrite <- P1. exact P. }
    split; [|split; [apply G|intros x Hx; apply in_remove in Hx; apply Hx]]. split; [|split; [exact NR|exact B]].
    unfold held. cbn [objects lib]. rewrite P2. simpl. exact R.
  - split; [|split; [apply G|auto]]. split; [|split; [exact N|exact B]]. unfold held. cbn [objects lib]. rewrite P2. simpl. simpl in P1. rewrite <- P1. exact P.
Qed.
Lemma put_sound st i s s' : sound st -> object st i = Some s -> handle_of s' = handle_of (Some s) -> sound (put st i s').
Proof.
  intros (P & N & B) O H. destruct (held_put st i s s' O) as (rest & P1 & P2). split; [|split; [exact N|exact B]].
  unfold held, put. cbn [objects lib]. rewrite P2, H, <- P1. exact P.
Qed.
Lemma add_sound st k : sound st -> sound (mkState (objects st ++ [Some (mkStrm k None true)]) (lib st) (bad st)).
Proof.
  intros (P & N & B). split; [|split; [exact N|exact B]]. unfold held. cbn [objects lib]. rewrite flat_map_app. simpl. rewrite app_nil_r. exact P.
Qed.
Lemma opened_sound st i s h : sound st -> object st i = Some s -> s_file s = None -> ~ In h (lib st) ->
  sound (mkState (set_nth (objects st) i (Some (mkStrm (s_kind s) (Some h) true))) (h :: lib st) (bad st)).
Proof.
  intros (P & N & B) O F I. destruct (held_put st i s (Some (mkStrm (s_kind s) (Some h) true)) O) as (rest & P1 & P2).
  unfold handle_of in P1. rewrite F in P1. simpl in P1. split; [|split; [constructor; assumption|exact B]].
  unfold held. cbn [objects lib]. rewrite P2. simpl. apply perm_skip. rewrite <- P1. exact P.
Qed.

Lemma step_sound st o st' : sound st -> careful st o -> hstep st o = HdfModel.Done st' -> sound st'.
Proof.
  intros S C E. destruct o as [k|i|i j|i r|i|i b|i]; cbn [hstep] in E.
  - injection E as <-. apply add_sound, S.
  - destruct (object st i) as [s|] eqn:O; [|discriminate]. injection E as <-. rewrite (C s O). apply add_sound, S.
  - destruct C as [C1 C2]. destruct (object st i) as [s|] eqn:O; [|discriminate]. destruct (object st j) as [t|] eqn:O'; [|discriminate]. injection E as <-.
    apply (put_sound st i s); [exact S|exact O|]. unfold handle_of. cbn [s_file]. rewrite (C1 s O), (C2 t O'). reflexivity.
  - destruct (object st i) as [s|] eqn:O; [|discriminate]. destruct (s_kind s) eqn:K.
    + destruct (close_sound st i s S O) as (S1 & O1 & _). rewrite K in O1. revert E. generalize dependent (close_stream st i s). intros st1 S1 O1 E.
      destruct (s_active s).
      * destruct r as [h|].
        -- destruct (existsb (Nat.eqb h) (lib st1)) eqn:I; [discriminate|]. injection E as <-.
           apply (opened_sound st1 i (mkStrm Input None true) h S1 O1 eq_refl). intros I'. apply existsb_in in I'. congruence.
        -- injection E as <-. eapply put_sound; [exact S1|exact O1|reflexivity].
      * injection E as <-. eapply put_sound; [exact S1|exact O1|reflexivity].
    + pose proof (C s O K) as F. destruct (s_active s).
      * destruct r as [h|]; [|discriminate]. destruct (existsb (Nat.eqb h) (lib st)) eqn:I; [discriminate|]. injection E as <-.
        pose proof (opened_sound st i s h S O F) as X. rewrite K in X. apply X. intros I'. apply existsb_in in I'. congruence.
      * injection E as <-. apply (put_sound st i s _ S O). unfold handle_of; cbn [s_file]; reflexivity.
  - destruct (object st i) as [s|] eqn:O; [|discriminate]. injection E as <-. apply close_sound; assumption.
  - destruct (object st i) as [s|] eqn:O; [|discriminate]. injection E as <-. apply (put_sound st i s _ S O). unfold handle_of; cbn [s_file]; reflexivity.
  - destruct (object st i) as [s|] eqn:O; [|discriminate]. injection E as <-. destruct (close_sound st i s S O) as (S1 & O1 & _).
    apply (put_sound _ i _ None S1 O1). reflexivity.
Qed.
Lemma run_sound os : forall st st', sound st -> careful_run st os -> hrun st os = HdfModel.Done st' -> sound st'.
Proof.
  induction os as [|o os IH]; intros st st' S C E; cbn [hrun] in E; [injection E as <-; exact S|].
  destruct C as [C1 C2]. destruct (hstep st o) as [st1| |] eqn:E1; cbn [HdfModel.io_bind] in E; try discriminate.
  apply (IH st1 st' (step_sound _ _ _ S C1 E1) C2 E).
Qed.
Lemma handles_ok os st : careful_run hstart os -> hrun hstart os = HdfModel.Done st ->
  Permutation (held st) (lib st) /\ NoDup (lib st) /\ bad st = 0 /\ (Forall (fun o => o = None) (objects st) -> lib st = []).
Proof.
  intros C E. destruct (run_sound os hstart st) as (P & N & B); auto.
  { split; [apply Permutation_refl|]. split; [constructor|reflexivity]. }
  split; [exact P|]. split; [exact N|]. split; [exact B|]. intros F. unfold held in P.
  assert (H : flat_map handle_of (objects st) = []) by (induction F as [|o l -> _ IH]; [reflexivity|exact (IH P)]).
  rewrite H in P. apply Permutation_nil in P. exact P.
Qed.
(** Careless programs. *)
Lemma reopened : exists st, hrun hstart [New Output; OpenFile 0 (Some 7); OpenFile 0 (Some 8); Destroy 0] = HdfModel.Done st /\ Forall (fun o => o = None) (objects st) /\ lib st = [7].
Proof. eexists. split; [reflexivity|]. split; [repeat constructor|reflexivity]. Qed.
Lemma copied : exists st, hrun hstart [New Output; OpenFile 0 (Some 7); CopyOf 0; Destroy 1] = HdfModel.Done st /\ held st = [7] /\ lib st = [] /\
  exists st', hrun st [Destroy 0] = HdfModel.Done st' /\ bad st' = 1.
Proof. eexists. split; [reflexivity|]. split; [reflexivity|]. split; [reflexivity|]. eexists. split; reflexivity. Qed.
Lemma careful_case : exists st, careful_run hstart [New Output; New Input; OpenFile 0 (Some 7); OpenFile 1 (Some 8); OpenFile 1 (Some 9); CloseFile 0; OpenFile 0 (Some 8)] /\
  hrun hstart [New Output; New Input; OpenFile 0 (Some 7); OpenFile 1 (Some 8); OpenFile 1 (Some 9); CloseFile 0; OpenFile 0 (Some 8)] = HdfModel.Done st /\
  lib st = [8; 9].
Proof.
  eexists. split; [|split; [reflexivity|reflexivity]]. cbn [careful_run careful hstep].
  repeat split; try (intros s E K; vm_compute in E; injection E as <-; try discriminate K; reflexivity).
Qed.

(** ** Attributes *)
Section Attr.
  Context {V : Type}.
  Notation aop := (@aop V).
  Lemma attr_set_content name addr dims a n : content n (attr_set name addr dims a) = if String.eqb name n then Some (addr, dims) else content n a.
  Proof.
    unfold content. induction a as [|[m x] a IH]; cbn [attr_set find fst].
    - destruct (String.eqb name n); reflexivity.
    - destruct (String.eqb_spec m name) as [->|N]; cbn [find fst].
      + destruct (String.eqb name n); reflexivity.
      + destruct (String.eqb_spec m n) as [->|M]; [|exact IH].
        destruct (String.eqb_spec name n) as [->|_]; [congruence|reflexivity].
  Qed.
  Lemma attr_set_in name addr dims a n : In n (map fst (attr_set name addr dims a)) -> n = name \/ In n (map fst a).
  Proof.
    induction a as [|[m x] a IH]; cbn [attr_set map fst]; [intros [<-|[]]; auto|]. destruct (String.eqb_spec m name) as [->|M]; cbn [map fst].
    - intros [<-|H]; [auto|]. right. right. exact H.
    - intros [<-|H]; [right; left; reflexivity|]. destruct (IH H) as [H'|H']; [auto|]. right. right. exact H'.
  Qed.
  Lemma attr_set_names name addr dims a : NoDup (map fst a) -> NoDup (map fst (attr_set name addr dims a)).
  Proof.
    induction a as [|[m x] a IH]; cbn [attr_set map fst]; intros N; [constructor; [intros []|constructor]|]. inversion N as [|? ? H1 H2]; subst.
    destruct (String.eqb_spec m name) as [->|M]; cbn [map fst]; [constructor; assumption|]. constructor; [|apply IH, H2].
    intros H. destruct (attr_set_in _ _ _ _ _ H); contradiction.
  Qed.
  Lemma attr_write_content m a w : attr_write (V := V) m a = Some w -> map fst w = map fst a /\
    forall n, content n w = match content n a with Some (addr, dims) => option_map (firstn dims) (m addr) | None => None end.
  Proof.
    revert w. induction a as [|[n' [addr dims]] a IH]; intros w E; cbn [attr_write] in E.
    - injection E as <-. split; reflexivity.
    - destruct (m addr) as [l|] eqn:L; [|discriminate]. destruct (Nat.leb dims (List.length l)); [|discriminate].
      destruct (attr_write m a) as [w'|]; [|discriminate]. injection E as <-. destruct (IH w' eq_refl) as [F C]. simpl. split; [rewrite F; reflexivity|].
      intros n. unfold content in *. cbn [find fst]. destruct (String.eqb n' n); [cbn [option_map snd]; rewrite L; reflexivity|apply C].
  Qed.
  Lemma attr_runs os : forall (m : @memory V) a ws, NoDup (map fst a) -> attr_run m a os = Some ws ->
    List.length ws = writes os /\
    forall pre post, os = pre ++ AWrite :: post -> exists w, nth_error ws (writes pre) = Some w /\ NoDup (map fst w) /\
      forall n, content n w = match last_set n pre (content n a) with Some (addr, dims) => option_map (firstn dims) (value_after addr pre (m addr)) | None => None end.
  Proof.
    induction os as [|o os IH]; intros m a ws N E; cbn [attr_run] in E.
    - injection E as <-. split; [reflexivity|]. intros [|? ?] post H; discriminate.
    - destruct o as [name addr dims|addr v|addr|].
      + destruct (IH m _ ws (attr_set_names name addr dims a N) E) as [L H]. split; [exact L|]. intros [|p pre] post Eq; simpl in Eq; [discriminate|]. injection Eq as <- Eq.
        destruct (H pre post Eq) as (w & Ew & Nw & Cw). exists w. split; [exact Ew|]. split; [exact Nw|]. intros n. rewrite Cw. rewrite attr_set_content. reflexivity.
      + destruct (IH _ a ws N E) as [L H]. split; [exact L|]. intros [|p pre] post Eq; simpl in Eq; [discriminate|]. injection Eq as <- Eq.
        destruct (H pre post Eq) as (w & Ew & Nw & Cw). exists w. split; [exact Ew|]. split; [exact Nw|]. intros n. rewrite Cw. cbn [last_set value_after].
        destruct (last_set n pre (content n a)) as [[a' d]|]; [|reflexivity]. unfold mem_set. rewrite (Nat.eqb_sym addr a'). reflexivity.
      + destruct (IH _ a ws N E) as [L H]. split; [exact L|]. intros [|p pre] post Eq; simpl in Eq; [discriminate|]. injection Eq as <- Eq.
        destruct (H pre post Eq) as (w & Ew & Nw & Cw). exists w. split; [exact Ew|]. split; [exact Nw|]. intros n. rewrite Cw. cbn [last_set value_after].
        destruct (last_set n pre (content n a)) as [[a' d]|]; [|reflexivity]. unfold mem_set. rewrite (Nat.eqb_sym addr a'). reflexivity.
      + destruct (attr_write m a) as [w|] eqn:W; [|discriminate]. destruct (attr_run m a os) as [ws'|] eqn:R; [|discriminate]. injection E as <-.
        destruct (IH m a ws' N R) as [L H]. split; [unfold writes in *; simpl; rewrite L; reflexivity|]. intros [|p pre] post Eq; simpl in Eq.
        * injection Eq as <-. exists w. destruct (attr_write_content m a w W) as [F C]. split; [reflexivity|]. split; [rewrite F; exact N|]. exact C.
        * injection Eq as <- Eq. destruct (H pre post Eq) as (w' & Ew & Nw & Cw). exists w'. split; [exact Ew|]. split; [exact Nw|]. exact Cw.
  Qed.
  (** The run is defined if and only if every variable exists and is long enough whenever a data set is written. *)
  Lemma attr_write_def (m : @memory V) a : (exists w, attr_write (V := V) m a = Some w) <-> Forall (fun x => exists l, m (fst (snd x)) = Some l /\ snd (snd x) <= List.length l) a.
  Proof.
    induction a as [|[n [addr dims]] a IH]; cbn [attr_write].
    - split; [constructor|intros _; eexists; reflexivity].
    - split.
      + intros (w & E). destruct (m addr) as [l|] eqn:L; [|discriminate]. destruct (Nat.leb_spec dims (List.length l)); [|discriminate].
        constructor; [exists l; auto|]. apply IH. destruct (attr_write m a) as [w'|]; [exists w'; reflexivity|discriminate].
      + intros F. inversion F as [|? ? (l & L & D) F']; subst. cbn [fst snd] in L, D. rewrite L. rewrite (proj2 (Nat.leb_le _ _) D). destruct (proj2 IH F') as (w & ->). eexists. reflexivity.
  Qed.
End Attr.
Lemma attr_all {V} (m : @memory V) os ws : attr_run m [] os = Some ws -> List.length ws = writes os /\
  forall pre post, os = pre ++ AWrite :: post -> exists w, nth_error ws (writes pre) = Some w /\ NoDup (map fst w) /\
    forall n, content n w = match last_set n pre None with Some (addr, dims) => option_map (firstn dims) (value_after addr pre (m addr)) | None => None end.
Proof. intros E. apply (attr_runs os m [] ws); [constructor|exact E]. Qed.
Definition one_variable : @memory Z := fun a => if Nat.eqb a 0 then Some [5%Z] else None.
Lemma attr_late : attr_run one_variable [] [ASet "dt" 0 1; AChange 0 [6%Z]; AWrite] = Some [[("dt"%string, [6%Z])]].
Proof. reflexivity. Qed.
Lemma attr_dangling : attr_run one_variable [] [ASet "dt" 0 1; AEnd 0; AWrite] = None.
Proof. reflexivity. Qed.
