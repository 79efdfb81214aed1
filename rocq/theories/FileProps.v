(** Property theorems C90 (text files of diagnostics), C91 (HDF files of diagnostics), C92 (handles of HDF files),
    C93 (attributes). *)
From Coq Require Import ZArith List Bool String Permutation.
From Verif Require Import DiagModel DiagSpec FileModel FileSpec FileProofs FileExamples.
From Verif Require HdfModel.
Import ListNotations.
Local Open Scope Z_scope.

(** C90.  A text diagnostic that does not append, executed at any steps, each with some text of the field: at the end
    the file of an output holds exactly the text the field had then, unless a later output has the same name; all other
    files are as before.  Missing from the full property: interval zero. *)
Theorem C90_each_partial : forall openable parallel master rank c interval fs0 steps, interval <> 0 -> active master c -> append c = false ->
  exists fs, text_run openable parallel master rank c interval fs0 steps = Some fs /\
    (forall pre n txt post, steps = (pre ++ (n, txt) :: post)%list -> writes_at interval n ->
       openable (parsed_file_name parallel (fname c) rank n) = true ->
       (forall m t, In (m, t) post -> writes_at interval m -> parsed_file_name parallel (fname c) rank m <> parsed_file_name parallel (fname c) rank n) ->
       content (parsed_file_name parallel (fname c) rank n) fs = Some txt) /\
    (forall f, (forall m t, In (m, t) steps -> writes_at interval m -> openable f = true -> parsed_file_name parallel (fname c) rank m <> f) ->
       content f fs = content f fs0).
Proof. exact text_each. Qed.
Print Assumptions C90_each_partial.
(** One that appends, in a run that starts at step 0 and does not come back to it: the file holds all outputs, one after
    the other.  Missing: other runs. *)
Theorem C90_append_partial : forall openable parallel master rank c interval fs0 t0 steps, interval <> 0 -> active master c -> append c = true ->
  openable (fname c) = true -> (forall n t, In (n, t) steps -> n <> 0) ->
  exists fs, text_run openable parallel master rank c interval fs0 ((0, t0) :: steps) = Some fs /\
    content (fname c) fs = Some (t0 ++ all_texts interval steps)%string /\ (forall f, f <> fname c -> content f fs = content f fs0).
Proof. exact text_append. Qed.
Print Assumptions C90_append_partial.
(** A run without step 0 leaves no output at all. *)
Theorem C90_restart_refuted : forall openable parallel master rank c interval fs0 steps, interval <> 0 -> active master c -> append c = true ->
  (forall n t, In (n, t) steps -> n <> 0) -> text_run openable parallel master rank c interval fs0 steps = Some fs0.
Proof. exact text_append_late. Qed.
Print Assumptions C90_restart_refuted.
(** After a second execution at step 0 all output is lost. *)
Theorem C90_step_zero_again_refuted : forall openable parallel master rank c interval fs0 t0 mid t1 steps, interval <> 0 -> active master c -> append c = true ->
  openable (fname c) = true -> (forall n t, In (n, t) mid -> n <> 0) ->
  exists fs, text_run openable parallel master rank c interval fs0 ((0, t0) :: mid ++ (0, t1) :: steps) = Some fs /\
    content (fname c) fs = Some (t0 ++ all_texts interval mid)%string.
Proof. exact text_append_twice. Qed.
Print Assumptions C90_step_zero_again_refuted.
Example C90_each_case : active true each_file /\ append each_file = false /\ writes_at 2 4 /\
  option_map (content "out4.dat") (text_run every false true 0 each_file 2 [] [(0, "a"); (1, "b"); (2, "c"); (3, "d"); (4, "e")]%string) = Some (Some "e"%string) /\
  option_map (content "out3.dat") (text_run every false true 0 each_file 2 [] [(0, "a"); (1, "b"); (2, "c"); (3, "d"); (4, "e")]%string) = Some None.
Proof. exact ex_each. Qed.
Example C90_append_case : active true one_file /\ append one_file = true /\
  option_map (content "out.dat") (text_run every false true 0 one_file 2 [] [(0, "a"); (1, "b"); (2, "c"); (-1, "d")]%string) = Some (Some "acd"%string) /\
  option_map (content "out.dat") (text_run every false true 0 one_file 2 [] [(0, "a"); (2, "b"); (0, "c"); (2, "d")]%string) = Some (Some "ab"%string).
Proof. exact ex_append. Qed.

(** C91.  The same for HDF diagnostics: each file holds exactly one data set, "data"; no file stays open.
    Missing from the full property: diagnostics that append; files that cannot be created. *)
Theorem C91_each_partial : forall (D : Type) openable parallel master rank c interval (fs0 : files (list (string * D))) steps,
  interval <> 0 -> active master c -> append c = false ->
  (forall n d, In (n, d) steps -> writes_at interval n -> openable (parsed_file_name parallel (fname c) rank n) = true) ->
  exists h, hdf_steps openable parallel master rank c interval (hdf_start fs0) steps = HdfModel.Done h /\ h_file h = None /\ h_lost h = [] /\
    (forall pre n d post, steps = (pre ++ (n, d) :: post)%list -> writes_at interval n ->
       (forall m t, In (m, t) post -> writes_at interval m -> parsed_file_name parallel (fname c) rank m <> parsed_file_name parallel (fname c) rank n) ->
       content (parsed_file_name parallel (fname c) rank n) (h_files h) = Some [("data"%string, d)]) /\
    (forall f, (forall m t, In (m, t) steps -> writes_at interval m -> parsed_file_name parallel (fname c) rank m <> f) -> content f (h_files h) = content f fs0).
Proof. exact @hdf_all. Qed.
Print Assumptions C91_each_partial.
(** One that appends aborts the program at its second output: the name "data" is taken. *)
Theorem C91_append_refuted : forall (D : Type) openable parallel master rank c interval, interval <> 0 -> active master c ->
  forall (d0 : D) mid n d post fs, append c = true -> openable (fname c) = true ->
  (forall m t, In (m, t) mid -> m <> 0 /\ ~ writes_at interval m) -> writes_at interval n ->
  hdf_steps openable parallel master rank c interval (hdf_start fs) ((0, d0) :: mid ++ (n, d) :: post) = HdfModel.Abort.
Proof. exact @hdf_append. Qed.
Print Assumptions C91_append_refuted.
Example C91_case : exists h, hdf_steps every false true 0 each_file 2 (hdf_start []) [(0, 10); (1, 11); (2, 12)] = HdfModel.Done h /\
  content "out2.dat" (h_files h) = Some [("data"%string, 12)].
Proof. exact ex_hdf. Qed.

(** C92.  Programs that copy and assign streams only while they are closed and open output streams only while they are
    closed: after any sequence of operations the open files are exactly those held by the stream objects, each by one of
    them; no file was closed twice; when all streams are destroyed, all files are closed.
    Missing from the full property: other programs. *)
Theorem C92_careful_partial : forall os st, careful_run hstart os -> hrun hstart os = HdfModel.Done st ->
  Permutation (held st) (lib st) /\ NoDup (lib st) /\ bad st = 0%nat /\ (Forall (fun o => o = None) (objects st) -> lib st = []).
Proof. exact handles_ok. Qed.
Print Assumptions C92_careful_partial.
(** Opening an output stream again leaves the first file open for ever. *)
Theorem C92_reopen_refuted : exists st, hrun hstart [New Output; OpenFile 0 (Some 7); OpenFile 0 (Some 8); Destroy 0]%nat = HdfModel.Done st /\
  Forall (fun o => o = None) (objects st) /\ lib st = [7]%nat.
Proof. exact reopened. Qed.
Print Assumptions C92_reopen_refuted.
(** Destroying a copy closes the file of the original, which later closes it again. *)
Theorem C92_copy_refuted : exists st, hrun hstart [New Output; OpenFile 0 (Some 7); CopyOf 0; Destroy 1]%nat = HdfModel.Done st /\ held st = [7]%nat /\ lib st = [] /\
  exists st', hrun st [Destroy 0] = HdfModel.Done st' /\ bad st' = 1%nat.
Proof. exact copied. Qed.
Print Assumptions C92_copy_refuted.
Example C92_case : exists st, careful_run hstart [New Output; New Input; OpenFile 0 (Some 7); OpenFile 1 (Some 8); OpenFile 1 (Some 9); CloseFile 0; OpenFile 0 (Some 8)]%nat /\
  hrun hstart [New Output; New Input; OpenFile 0 (Some 7); OpenFile 1 (Some 8); OpenFile 1 (Some 9); CloseFile 0; OpenFile 0 (Some 8)]%nat = HdfModel.Done st /\
  lib st = [8; 9]%nat.
Proof. exact careful_case. Qed.

(** C93.  Every data set carries one attribute for each name set before, with the values which the variable given last for
    this name has when the data set is written; *)
Theorem C93_attributes : forall (V : Type) (m : @memory V) os ws, attr_run m [] os = Some ws -> List.length ws = writes os /\
  forall pre post, os = (pre ++ AWrite :: post)%list -> exists w, nth_error ws (writes pre) = Some w /\ NoDup (map fst w) /\
    forall n, content n w = match last_set n pre None with Some (addr, dims) => option_map (firstn dims) (value_after addr pre (m addr)) | None => None end.
Proof. exact @attr_all. Qed.
Print Assumptions C93_attributes.
(** which is defined exactly if all those variables exist then and have as many values as asked for. *)
Theorem C93_defined : forall (V : Type) (m : @memory V) a, (exists w, attr_write m a = Some w) <->
  Forall (fun x => exists l, m (fst (snd x)) = Some l /\ (snd (snd x) <= List.length l)%nat) a.
Proof. exact @attr_write_def. Qed.
Print Assumptions C93_defined.
(** A variable changed after [set] is written with its new value; one that has gone out of scope is undefined. *)
Example C93_changed : attr_run one_variable [] [ASet "dt" 0 1; AChange 0 [6]; AWrite] = Some [[("dt"%string, [6])]].
Proof. exact attr_late. Qed.
Example C93_dangling : attr_run one_variable [] [ASet "dt" 0 1; AEnd 0; AWrite] = None.
Proof. exact attr_dangling. Qed.
