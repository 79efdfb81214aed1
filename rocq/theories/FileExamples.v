(** Cases for the theorems about files. *)
From Coq Require Import ZArith List Bool String Lia.
From Verif Require Import DiagModel DiagSpec FileModel FileSpec FileProofs.
From Verif Require HdfModel.
Import ListNotations.
Local Open Scope Z_scope.
Definition every : string -> bool := fun _ => true.
Definition each_file : config := mkConfig "out#t.dat" false false.
Definition one_file : config := mkConfig "out.dat" true false.
Lemma ex_each : active true each_file /\ append each_file = false /\ writes_at 2 4 /\
  option_map (content "out4.dat") (text_run every false true 0 each_file 2 [] [(0, "a"); (1, "b"); (2, "c"); (3, "d"); (4, "e")]%string) = Some (Some "e"%string) /\
  option_map (content "out3.dat") (text_run every false true 0 each_file 2 [] [(0, "a"); (1, "b"); (2, "c"); (3, "d"); (4, "e")]%string) = Some None.
Proof. split; [discriminate|]. split; [reflexivity|]. split; [right; exists 2; reflexivity|]. split; vm_compute; reflexivity. Qed.
Lemma ex_append : active true one_file /\ append one_file = true /\
  option_map (content "out.dat") (text_run every false true 0 one_file 2 [] [(0, "a"); (1, "b"); (2, "c"); (-1, "d")]%string) = Some (Some "acd"%string) /\
  option_map (content "out.dat") (text_run every false true 0 one_file 2 [] [(0, "a"); (2, "b"); (0, "c"); (2, "d")]%string) = Some (Some "ab"%string).
Proof. split; [discriminate|]. split; [reflexivity|]. split; vm_compute; reflexivity. Qed.
Lemma ex_hdf : exists h, hdf_steps every false true 0 each_file 2 (hdf_start []) [(0, 10); (1, 11); (2, 12)] = HdfModel.Done h /\
  content "out2.dat" (h_files h) = Some [("data"%string, 12)].
Proof. eexists. split; vm_compute; reflexivity. Qed.
Lemma hdf_all {D} openable parallel master rank c interval (fs0 : files (list (string * D))) steps : interval <> 0 -> active master c -> append c = false ->
  (forall n d, In (n, d) steps -> writes_at interval n -> openable (parsed_file_name parallel (fname c) rank n) = true) ->
  exists h, hdf_steps openable parallel master rank c interval (hdf_start fs0) steps = HdfModel.Done h /\ h_file h = None /\ h_lost h = [] /\
    (forall pre n d post, steps = (pre ++ (n, d) :: post)%list -> writes_at interval n ->
       (forall m t, In (m, t) post -> writes_at interval m -> parsed_file_name parallel (fname c) rank m <> parsed_file_name parallel (fname c) rank n) ->
       content (parsed_file_name parallel (fname c) rank n) (h_files h) = Some [("data"%string, d)]) /\
    (forall f, (forall m t, In (m, t) steps -> writes_at interval m -> parsed_file_name parallel (fname c) rank m <> f) -> content f (h_files h) = content f fs0).
Proof.
  intros Hi Ha Hp O. destruct (hdf_each openable parallel master rank c interval Hi Ha steps Hp HdfModel.new_stream fs0 O) as (s & fs & E & L & U).
  exists (mkHdf None s [] fs). auto.
Qed.
