(** Proofs about printed grids. *)
From Coq Require Import String Ascii.
From Verif Require Import Vec GridSpec RangeModel BoxFacts GridModel StreamModel StreamSpec.
Local Open Scope string_scope.

Lemma app_empty s : s ++ "" = s.
Proof. induction s as [|c s IH]; cbn; [reflexivity|now rewrite IH]. Qed.
Lemma app_assoc_s (a b c : string) : (a ++ b) ++ c = a ++ b ++ c.
Proof. induction a as [|x a IH]; cbn; [reflexivity|now rewrite IH]. Qed.
Lemma concat_cons x l : String.concat "" (x :: l) = x ++ String.concat "" l.
Proof. destruct l; cbn; [now rewrite app_empty|reflexivity]. Qed.
Lemma concat_app a b : String.concat "" (a ++ b)%list = String.concat "" a ++ String.concat "" b.
Proof.
  induction a as [|x a IH]; [reflexivity|]. cbn [app]. rewrite !concat_cons, IH, app_assoc_s. reflexivity.
Qed.
Lemma concat_flat {X} (f : X -> list string) l : String.concat "" (flat_map f l) = String.concat "" (map (fun x => String.concat "" (f x)) l).
Proof. induction l as [|x l IH]; [reflexivity|]. cbn [flat_map map]. rewrite concat_app, concat_cons, IH. reflexivity. Qed.
Lemma concat_sep {X} (f : X -> string) x l :
  String.concat " " (map f (x :: l)) = f x ++ String.concat "" (map (fun y => " " ++ f y) l).
Proof.
  revert x. induction l as [|y l IH]; intros x; [cbn; now rewrite app_empty|].
  change (map f (x :: y :: l)) with (f x :: map f (y :: l)). cbn [map].
  change (String.concat " " (f x :: f y :: map f l)) with (f x ++ " " ++ String.concat " " (map f (y :: l))).
  rewrite IH, concat_cons. reflexivity.
Qed.

Lemma from_to_zloop a b : from_to a b = zloop a b.
Proof. reflexivity. Qed.

Lemma for_some lo hi body f : (forall i, lo <= i <= hi -> body i = Some (f i))%Z ->
  for_ lo hi body = Some (String.concat "" (map f (zloop lo hi))).
Proof.
  intros H. unfold for_.
  assert (forall l, (forall i, In i l -> body i = Some (f i)) ->
    fold_right (fun i r => seq_ (body i) r) (Some "") l = Some (String.concat "" (map f l))) as G.
  { induction l as [|i l IH]; intros K; [reflexivity|]. cbn [fold_right map]. rewrite IH by (intros; apply K; now right).
    rewrite (K i) by now left. rewrite concat_cons. reflexivity. }
  apply G. intros i Hi. apply H. now apply zloop_In.
Qed.

(** The row loop of all the overloads. *)
Lemma row_loop {V} (show : V -> string) (val : vec -> V) g h lo0 hi0 q (tail : string) :
  (lo0 <= hi0)%Z -> (forall i, (lo0 <= i <= hi0)%Z -> grid_read g h (i :: q) = Some (val (i :: q))) ->
  seq_ (element show g h (lo0 :: q)) (seq_ (for_ (lo0 + 1) hi0 (fun i => seq_ (Some " ") (element show g h (i :: q)))) (Some tail))
  = Some (row show val lo0 hi0 q ++ tail).
Proof.
  intros Hlo R. unfold element at 1. rewrite R by lia. cbn [option_map].
  rewrite (for_some _ _ _ (fun i => " " ++ show (val (i :: q)))).
  - cbn [seq_]. unfold row. rewrite (from_to_zloop lo0 hi0), (zloop_cons lo0 hi0) by exact Hlo.
    rewrite (concat_sep (fun i => show (val (i :: q)))), (app_assoc_s (show (val (lo0 :: q)))). reflexivity.
  - intros i Hi. unfold element. rewrite R by lia. reflexivity.
Qed.

Lemma low_le_high_ok g : length (g_hi g) = length (g_lo g) -> (low_le_high g = true <-> box_ok (g_lo g) (g_hi g)).
Proof.
  unfold low_le_high, low, high. destruct g as [o b lo hi]; cbn [g_lo g_hi].
  revert hi. induction lo as [|l lo IH]; intros [|x hi] L; try discriminate L; cbn [box_ok]; [cbn; tauto|].
  cbn [List.length seq forallb]. rewrite <- seq_shift, andb_true_iff, <- IH by (cbn in L; lia).
  rewrite forallb_forall, forallb_forall. unfold vget at 1 2; cbn [nth]. split.
  - intros [A B]. split; [lia|]. intros i Hi. exact (B (S i) (in_map S _ _ Hi)).
  - intros [A B]. split; [destruct (l >? x)%Z eqn:E; [lia|reflexivity]|]. intros i Hi. apply in_map_iff in Hi. destruct Hi as (j & <- & Hj). exact (B j Hj).
Qed.

Lemma empty_prints {V} (show : V -> string) g h : length (g_hi g) = length (g_lo g) ->
  ~ box_ok (g_lo g) (g_hi g) -> print_grid show g h = Some "".
Proof.
  intros L E. unfold print_grid. destruct (low_le_high g) eqn:B; [|reflexivity]. exfalso. apply E. now apply low_le_high_ok.
Qed.

Lemma fbox1 a b : fbox [a] [b] = map (fun j => [j]) (zloop a b).
Proof. change (fbox ([] ++ [a])%list ([] ++ [b])%list = map (fun j => [j]) (zloop a b)). rewrite fbox_snoc. cbn. induction (zloop a b); cbn; [reflexivity|now f_equal]. Qed.
Lemma fbox2 a b c d : fbox [a; c] [b; d] = flat_map (fun k => map (fun j => [j; k]) (zloop a b)) (zloop c d).
Proof.
  change (fbox ([a] ++ [c])%list ([b] ++ [d])%list = flat_map (fun k => map (fun j => [j; k]) (zloop a b)) (zloop c d)).
  rewrite fbox_snoc, fbox1. apply flat_map_ext. intros k. rewrite map_map. reflexivity.
Qed.
Lemma fbox_snoc_map lo hi l h {X} (f : vec -> X) :
  map f (fbox (lo ++ [l])%list (hi ++ [h])%list) = flat_map (fun x => map (fun p => f (p ++ [x])%list) (fbox lo hi)) (zloop l h).
Proof. rewrite fbox_snoc, map_flat_map. apply flat_map_ext. intros x. now rewrite map_map. Qed.

Lemma plane_end {V} (show : V -> string) (val : vec -> V) l0 h0 a b r :
  (a <= b)%Z ->
  String.concat "" (map (fun q => row show val l0 h0 q ++ String "010" (if ends_plane b q then String "010" "" else ""))
    (map (fun j => j :: r) (zloop a b)))
  = String.concat "" (map (fun j => row show val l0 h0 (j :: r) ++ endl) (zloop a b)) ++ match r with [] => "" | _ => endl end.
Proof.
  intros H. remember (Z.to_nat (b - a)) as n eqn:N. revert a H N. induction n as [|n IH]; intros a H N.
  - assert (a = b) by lia. subst a. rewrite zloop_cons, zloop_empty by lia. cbn [map]. cbn [String.concat].
    destruct r as [|x r]; cbn [ends_plane]; [rewrite app_empty; reflexivity|].
    rewrite Z.eqb_refl, app_assoc_s. reflexivity.
  - rewrite zloop_cons by lia. cbn [map]. rewrite !concat_cons, IH by lia.
    rewrite !app_assoc_s. destruct r as [|x r]; cbn [ends_plane]; [reflexivity|].
    destruct (Z.eqb_spec a b); [lia|reflexivity].
Qed.

Lemma print_layout {V} (show : V -> string) (val : vec -> V) g h :
  (1 <= length (g_lo g) <= 5)%nat -> box_ok (g_lo g) (g_hi g) ->
  (forall p, in_box (g_lo g) (g_hi g) p -> grid_read g h p = Some (val p)) ->
  print_grid show g h = Some (layout show val (g_lo g) (g_hi g) (fbox (tl (g_lo g)) (tl (g_hi g)))).
Proof.
  intros Hr Hok R. unfold print_grid.
  rewrite (proj2 (low_le_high_ok g (box_ok_length _ _ Hok)) Hok). cbn [negb].
  unfold print1, print2, print3, print4, print5, low, high. destruct g as [o bl lo hi]; cbn [g_lo g_hi] in *.
  destruct lo as [|l0 lo]; [cbn in Hr; lia|]. destruct hi as [|h0 hi]; [easy|]. destruct Hok as [H0 Hok].
  destruct lo as [|l1 lo].
  { destruct hi; [|easy]. cbn [List.length layout tl]. unfold vget; cbn [nth].
    pose proof (row_loop show val (mkGrid o bl [l0] [h0]) h l0 h0 [] "" H0) as Q.
    rewrite app_empty in Q. rewrite <- Q by (intros i Hi; apply R; split; [exact Hi|exact I]).
    f_equal. destruct (for_ _ _ _); cbn; [now rewrite app_empty|reflexivity]. }
  destruct hi as [|h1 hi]; [easy|]. destruct Hok as [H1 Hok].
  destruct lo as [|l2 lo].
  { destruct hi; [|easy]. cbn [List.length layout tl]. unfold vget; cbn [nth].
    rewrite fbox1, plane_end, app_empty by exact H1. apply for_some. intros j Hj.
    apply row_loop; [exact H0|]. intros i Hi. apply R. repeat split; tauto. }
  destruct hi as [|h2 hi]; [easy|]. destruct Hok as [H2 Hok].
  assert (forall r, in_box lo hi r ->
    for_ l2 h2 (fun k => seq_ (for_ l1 h1 (fun j => seq_ (element show (mkGrid o bl (l0 :: l1 :: l2 :: lo) (h0 :: h1 :: h2 :: hi)) h (l0 :: j :: k :: r))
      (seq_ (for_ (l0 + 1) h0 (fun i => seq_ (Some " ") (element show (mkGrid o bl (l0 :: l1 :: l2 :: lo) (h0 :: h1 :: h2 :: hi)) h (i :: j :: k :: r)))) (Some endl)))) (Some endl))
    = Some (String.concat "" (map (fun q => row show val l0 h0 q ++ String "010" (if ends_plane h1 q then String "010" "" else ""))
       (map (fun q => q ++ r)%list (fbox [l1; l2] [h1; h2]))))) as P.
  { intros r Hin. rewrite fbox2, map_flat_map, map_flat_map, concat_flat. apply for_some. intros k Hk.
    rewrite (for_some _ _ _ (fun j => row show val l0 h0 (j :: k :: r) ++ endl)).
    - cbn [seq_]. f_equal. rewrite (map_map (fun j => [j; k])). cbn [app]. rewrite plane_end by exact H1. reflexivity.
    - intros j Hj. apply row_loop; [exact H0|]. intros i Hi. apply R. repeat split; try tauto; exact Hin. }
  destruct lo as [|l3 lo].
  { destruct hi; [|easy]. cbn [List.length layout tl]. unfold vget; cbn [nth]. rewrite (P [] I). f_equal. f_equal. f_equal.
    rewrite <- (map_id (fbox _ _)) at 2. apply map_ext. intros q. apply app_nil_r. }
  destruct hi as [|h3 hi]; [easy|]. destruct Hok as [H3 Hok].
  destruct lo as [|l4 lo].
  { destruct hi; [|easy]. cbn [List.length layout tl]. unfold vget; cbn [nth].
    change (fbox [l1; l2; l3] [h1; h2; h3]) with (fbox ([l1; l2] ++ [l3])%list ([h1; h2] ++ [h3])%list).
    rewrite fbox_snoc_map, concat_flat. apply for_some. intros l Hl. rewrite (P [l]) by (repeat split; tauto).
    rewrite map_map. reflexivity. }
  destruct hi as [|h4 hi]; [easy|]. destruct Hok as [H4 Hok].
  destruct lo as [|l5 lo]; [|cbn in Hr; lia]. destruct hi; [|easy]. cbn [List.length layout tl]. unfold vget; cbn [nth].
  change (fbox [l1; l2; l3; l4] [h1; h2; h3; h4]) with (fbox ([l1; l2; l3] ++ [l4])%list ([h1; h2; h3] ++ [h4])%list).
  rewrite fbox_snoc_map, concat_flat. apply for_some. intros m Hm.
  change (fbox [l1; l2; l3] [h1; h2; h3]) with (fbox ([l1; l2] ++ [l3])%list ([h1; h2] ++ [h3])%list).
  rewrite fbox_snoc_map, concat_flat. apply for_some. intros l Hl. rewrite (P [l; m]) by (repeat split; tauto).
  rewrite map_map. f_equal. f_equal. apply map_ext. intros q. rewrite <- app_assoc. reflexivity.
Qed.

(** ** Words *)

Lemma split_word s rest : no_blank s = true -> split (s ++ rest) = (s ++ fst (split rest), snd (split rest)).
Proof.
  induction s as [|c s IH]; intros H; cbn in *; [now destruct (split rest)|].
  apply andb_true_iff in H. destruct H as [A B]. apply negb_true_iff in A. rewrite (IH B), A. reflexivity.
Qed.
Lemma words_blank c rest : is_blank c = true -> split (String c rest) = ("", words rest).
Proof. intros H. unfold words. cbn. destruct (split rest). rewrite H. reflexivity. Qed.
Lemma words_sep s c rest : one_word s -> is_blank c = true -> words (s ++ String c rest) = s :: words rest.
Proof.
  intros [N H] Hc. unfold words at 1. rewrite (split_word _ _ H), (words_blank _ _ Hc). cbn [fst snd].
  rewrite app_empty. unfold keep. destruct (String.eqb_spec s ""); [congruence|reflexivity].
Qed.
Lemma words_skip c rest : is_blank c = true -> words (String c rest) = words rest.
Proof. intros Hc. unfold words at 1. rewrite (words_blank _ _ Hc). reflexivity. Qed.
Lemma words_last s : one_word s -> words s = [s].
Proof.
  intros [N H]. pose proof (split_word s "" H) as Q. rewrite app_empty in Q. unfold words. rewrite Q. cbn. rewrite app_empty.
  unfold keep. destruct (String.eqb_spec s ""); [congruence|reflexivity].
Qed.
(** The words of words separated by blanks, before a blank or the end. *)
Definition stops (s : string) : Prop := s = "" \/ exists c r, s = String c r /\ is_blank c = true.
Lemma words_stop s rest : one_word s -> stops rest -> words (s ++ rest) = s :: words rest.
Proof. intros H [->|(c & r & -> & Hc)]; [rewrite app_empty, words_last by exact H; reflexivity|]. rewrite words_sep, words_skip by assumption. reflexivity. Qed.
Lemma words_list {X} (f : X -> string) l rest : (forall x, one_word (f x)) -> stops rest -> l <> [] ->
  words (String.concat " " (map f l) ++ rest) = (map f l ++ words rest)%list.
Proof.
  intros F R N. destruct l as [|x l]; [congruence|]. clear N. revert x. induction l as [|y l IH]; intros x.
  - cbn. now apply words_stop.
  - rewrite concat_sep. cbn [map]. rewrite concat_cons, !app_assoc_s. cbn [append]. rewrite words_sep by (auto; reflexivity).
    cbn [app]. f_equal. specialize (IH y). rewrite concat_sep, app_assoc_s in IH. exact IH.
Qed.

Lemma words_layout {V} (show : V -> string) (val : vec -> V) (lo hi : vec) qs :
  (forall v, one_word (show v)) -> box_ok lo hi -> lo <> [] -> (length lo = 1%nat -> qs = [[]]) ->
  words (layout show val lo hi qs) = map (fun p => show (val p)) (flat_map (fun q => map (fun i => i :: q) (zloop (hd 0%Z lo) (hd 0%Z hi))) qs).
Proof.
  intros Sh Hok N Q. destruct lo as [|l0 lo]; [congruence|]. destruct hi as [|h0 hi]; [easy|]. destruct Hok as [H0 Hok].
  assert (zloop l0 h0 <> []) as NZ by (rewrite zloop_cons by exact H0; discriminate).
  destruct lo as [|l1 lo].
  { destruct hi; [|easy]. rewrite (Q eq_refl). cbn [layout hd flat_map]. rewrite app_nil_r, map_map. unfold row. rewrite (from_to_zloop l0 h0).
    rewrite <- (app_empty (String.concat _ _)). rewrite (words_list (fun i => show (val [i]))); [apply app_nil_r|auto|now left|exact NZ]. }
  destruct hi as [|h1 hi]; [easy|]. cbn [layout hd].
  induction qs as [|q qs IH]; [reflexivity|]. cbn [map flat_map]. specialize (IH ltac:(intros K; discriminate K)). unfold vec in *. rewrite concat_cons, app_assoc_s, map_app, <- IH.
  unfold row at 1. rewrite (from_to_zloop l0 h0), (words_list (fun i => show (val (i :: q)))); [|auto|right; eexists _, _; now split|exact NZ].
  rewrite map_map. f_equal. cbn [append]. rewrite words_skip by reflexivity.
  destruct (ends_plane h1 q); [|reflexivity]. cbn [append]. now rewrite words_skip by reflexivity.
Qed.

Lemma fbox_cons l h lo hi : length hi = length lo ->
  fbox (l :: lo) (h :: hi) = flat_map (fun q => map (fun i => i :: q) (zloop l h)) (fbox lo hi).
Proof.
  revert hi. induction lo as [|x lo IH] using rev_ind; intros hi L.
  - destruct hi; [|discriminate]. rewrite fbox1. cbn. now rewrite app_nil_r.
  - destruct hi as [|y hi] using rev_ind; [rewrite app_length in L; cbn in L; lia|]. clear IHhi.
    rewrite !app_length in L. cbn in L.
    change (l :: lo ++ [x])%list with ((l :: lo) ++ [x])%list. change (h :: hi ++ [y])%list with ((h :: hi) ++ [y])%list.
    rewrite !fbox_snoc. rewrite IH by lia.
    induction (zloop x y) as [|z zs IHz]; [reflexivity|]. cbn [flat_map]. rewrite flat_map_app, IHz. f_equal.
    rewrite map_flat_map. clear. induction (fbox lo hi) as [|q qs IHq]; [reflexivity|]. cbn [flat_map map]. rewrite IHq, map_map. reflexivity.
Qed.

(** ** The theorems *)

Lemma printed_layout {V} (show : V -> string) (val : vec -> V) g h :
  (1 <= length (g_lo g) <= 5)%nat -> box_ok (g_lo g) (g_hi g) ->
  (forall p, in_box (g_lo g) (g_hi g) p -> grid_read g h p = Some (val p)) ->
  exists qs, enumerates colex_lt (tl (g_lo g)) (tl (g_hi g)) qs /\
    print_grid show g h = Some (layout show val (g_lo g) (g_hi g) qs).
Proof. intros Hr Hok R. eexists. split; [apply fbox_enumerates|]. now apply print_layout. Qed.

Lemma printed_words {V} (show : V -> string) (val : vec -> V) g h :
  (forall v, one_word (show v)) -> (1 <= length (g_lo g) <= 5)%nat -> box_ok (g_lo g) (g_hi g) ->
  (forall p, in_box (g_lo g) (g_hi g) p -> grid_read g h p = Some (val p)) ->
  exists text ps, print_grid show g h = Some text /\ enumerates colex_lt (g_lo g) (g_hi g) ps /\
    words text = map (fun p => show (val p)) ps.
Proof.
  intros Sh Hr Hok R. exists (layout show val (g_lo g) (g_hi g) (fbox (tl (g_lo g)) (tl (g_hi g)))), (fbox (g_lo g) (g_hi g)).
  split; [now apply print_layout|]. split; [apply fbox_enumerates|].
  rewrite words_layout; [|exact Sh|exact Hok|intros E; rewrite E in Hr; cbn in Hr; lia|].
  - pose proof (box_ok_length _ _ Hok) as L. destruct (g_lo g) as [|l lo]; [cbn in Hr; lia|]. destruct (g_hi g) as [|x hi]; [discriminate|].
    cbn [hd tl]. rewrite fbox_cons by (cbn in L; lia). reflexivity.
  - intros E. pose proof (box_ok_length _ _ Hok) as L. destruct (g_lo g) as [|l [|l1 lo]]; try discriminate E.
    destruct (g_hi g) as [|x [|x1 hi]]; try discriminate L. reflexivity.
Qed.

Lemma array_words {V} (show : V -> string) (a : list V) :
  print_array show a = String.concat " " (map show a) /\
  ((forall v, one_word (show v)) -> words (print_array show a) = map show a).
Proof.
  assert (print_array show a = String.concat " " (map show a)) as E.
  { destruct a as [|x a]; [reflexivity|]. cbn [print_array]. now rewrite concat_sep. }
  split; [exact E|]. intros Sh. rewrite E. destruct a as [|x a]; [reflexivity|].
  rewrite <- (app_empty (String.concat _ _)), (words_list show); [apply app_nil_r|exact Sh|now left|discriminate].
Qed.
Local Close Scope string_scope.
