(** Data buffers: what is stored is what is found. *)
From Coq Require Import ZArith List Bool Lia.
From Verif Require Import BufferModel.
Import ListNotations.
Local Open Scope Z_scope.

Section Proofs.
  Context {T byte : Type}.
  Variable dsize : nat.
  Variable bytes_of : T -> list byte.
  Variable object_of : list byte -> T.
  Hypothesis positive : (0 < dsize)%nat.
  Hypothesis sized : forall x, length (bytes_of x) = dsize.
  Hypothesis faithful : forall x, object_of (bytes_of x) = x.

  Lemma store_here : forall (l : list byte) (b : buffer byte), (length l <= length b)%nat -> store b 0 l = Some (map Some l ++ skipn (length l) b).
  Proof.
    induction l as [|x l IH]; intros b H; [destruct b; reflexivity|]. destruct b as [|y b]; [cbn in H; lia|]. cbn in H |- *. rewrite IH by lia. reflexivity.
  Qed.
  Lemma store_at : forall (a : buffer byte) (l : list byte) b, (length l <= length b)%nat -> store (a ++ b) (length a) l = Some (a ++ map Some l ++ skipn (length l) b).
  Proof.
    induction a as [|y a IH]; intros l b H; [apply store_here; exact H|]. destruct l as [|x l]; [reflexivity|]. cbn [app length store]. rewrite IH by exact H. reflexivity.
  Qed.
  Lemma flat_length : forall xs, length (flat_map bytes_of xs) = (length xs * dsize)%nat.
  Proof. induction xs as [|x xs IH]; cbn; [reflexivity|]. rewrite app_length, IH, sized. reflexivity. Qed.
  Lemma skipn_repeat : forall (k n : nat) (x : option byte), skipn k (repeat x n) = repeat x (n - k).
  Proof. induction k as [|k IH]; intros [|n] x; cbn; auto. Qed.
  Lemma copy_all : forall xs done, let size := Z.of_nat ((length done + length xs) * dsize) in
    copy_loop dsize bytes_of size (map Some (flat_map bytes_of done) ++ repeat None (length xs * dsize)) (Z.of_nat (length done * dsize)) xs = Some (map Some (flat_map bytes_of (done ++ xs))).
  Proof.
    induction xs as [|x xs IH]; intros done size; cbn [copy_loop].
    - cbn. rewrite !app_nil_r. reflexivity.
    - replace ((0 <=? Z.of_nat (length done * dsize)) && (Z.of_nat (length done * dsize) <=? size - 1)) with true.
      2: { symmetry. apply andb_true_iff. split; apply Z.leb_le; [lia|]. subst size. cbn [length]. nia. }
      rewrite Nat2Z.id.
      assert (L : length (map (@Some byte) (flat_map bytes_of done)) = (length done * dsize)%nat) by (rewrite map_length; apply flat_length).
      rewrite <- L, store_at by (rewrite repeat_length, sized; cbn [length]; nia). rewrite L, sized, skipn_repeat.
      specialize (IH (done ++ [x])). cbn zeta in IH. rewrite app_length in IH. cbn [length] in IH.
      replace (length (x :: xs) * dsize - dsize)%nat with (length xs * dsize)%nat by (cbn [length]; nia).
      replace (Z.of_nat (length done * dsize) + Z.of_nat dsize) with (Z.of_nat ((length done + 1) * dsize)) by nia.
      replace size with (Z.of_nat ((length done + 1 + length xs) * dsize)) by (subst size; cbn [length]; nia).
      rewrite flat_map_app in IH. cbn [flat_map] in IH. rewrite app_nil_r, map_app, <- !app_assoc in IH. exact IH.
  Qed.
  Lemma buffer_made : forall old xs, Z.of_nat (length xs) * Z.of_nat dsize < 2 ^ 31 -> make_buffer dsize bytes_of old xs = Some (map Some (flat_map bytes_of xs)).
  Proof.
    intros old xs H. unfold make_buffer. assert (Z.of_nat (length xs) < 2 ^ 31) by nia.
    replace (2 ^ 31 <=? Z.of_nat (length xs)) with false by (symmetry; apply Z.leb_gt; assumption). replace (2 ^ 31 <=? Z.of_nat (length xs) * Z.of_nat dsize) with false by (symmetry; apply Z.leb_gt; assumption).
    cbn [orb]. rewrite <- Nat2Z.inj_mul, Nat2Z.id. exact (copy_all xs []).
  Qed.
  Lemma all_set_some : forall l : list byte, all_set (map Some l) = Some l.
  Proof. induction l as [|x l IH]; cbn; [reflexivity|]. rewrite IH. reflexivity. Qed.
  Lemma iterate_all : forall xs done fuel, (length xs <= fuel)%nat -> iterate dsize object_of fuel (map Some (flat_map bytes_of (done ++ xs))) (length done * dsize) = Some (Some xs).
  Proof.
    induction xs as [|x xs IH]; intros done fuel Hf.
    - rewrite app_nil_r. assert (E : (length done * dsize)%nat = length (map (@Some byte) (flat_map bytes_of done))) by (rewrite map_length, flat_length; reflexivity).
      destruct fuel; cbn [iterate]; rewrite <- E, Nat.eqb_refl; reflexivity.
    - destruct fuel as [|fuel]; [cbn in Hf; lia|]. cbn [iterate].
      assert (L : length (map (@Some byte) (flat_map bytes_of (done ++ x :: xs))) = ((length done + S (length xs)) * dsize)%nat) by (rewrite map_length, flat_length, app_length; reflexivity).
      rewrite L. destruct (Nat.eqb_spec (length done * dsize) ((length done + S (length xs)) * dsize)) as [E|_]; [nia|].
      assert (D : deref dsize object_of (map Some (flat_map bytes_of (done ++ x :: xs))) (length done * dsize) = Some x).
      { unfold deref. rewrite flat_map_app, map_app. cbn [flat_map]. rewrite map_app.
        assert (E : (length done * dsize)%nat = length (map (@Some byte) (flat_map bytes_of done))) by (rewrite map_length, flat_length; reflexivity).
        rewrite E, skipn_app, skipn_all, Nat.sub_diag. cbn [skipn app].
        assert (E1 : dsize = length (map (@Some byte) (bytes_of x))) by (rewrite map_length; auto).
        assert (E2 : forall R, firstn dsize (map (@Some byte) (bytes_of x) ++ R) = map Some (bytes_of x)).
        { intros R. rewrite E1. rewrite firstn_app, Nat.sub_diag, firstn_all. cbn [firstn]. apply app_nil_r. }
        rewrite E2, <- E1, Nat.eqb_refl, all_set_some. cbn. rewrite faithful. reflexivity. }
      rewrite D. specialize (IH (done ++ [x]) fuel ltac:(cbn in Hf; lia)). rewrite <- app_assoc, app_length in IH. cbn [app length] in IH.
      replace (length done * dsize + dsize)%nat with ((length done + 1) * dsize)%nat by nia. rewrite IH. reflexivity.
  Qed.
  Lemma round_trip : forall old xs, Z.of_nat (length xs) * Z.of_nat dsize < 2 ^ 31 ->
    exists b, make_buffer dsize bytes_of old xs = Some b /\ b = map Some (flat_map bytes_of xs) /\
      forall fuel, (length xs <= fuel)%nat -> iterate dsize object_of fuel b 0 = Some (Some xs).
  Proof.
    intros old xs H. exists (map Some (flat_map bytes_of xs)). split; [apply buffer_made; exact H|]. split; [reflexivity|]. intros fuel Hf. exact (iterate_all xs [] fuel Hf).
  Qed.
  Lemma too_large : forall old xs, 2 ^ 31 <= Z.of_nat (length xs) * Z.of_nat dsize -> make_buffer dsize bytes_of old xs = None.
  Proof.
    intros old xs H. unfold make_buffer. replace (2 ^ 31 <=? Z.of_nat (length xs) * Z.of_nat dsize) with true by (symmetry; apply Z.leb_le; assumption). rewrite orb_true_r. reflexivity.
  Qed.
End Proofs.

(** Numbers below 65536 in two bytes. *)
Definition two_bytes (z : Z) : list Z := [z mod 256; z / 256].
Definition of_bytes (l : list Z) : Z := match l with [a; b] => a + 256 * b | _ => 0 end.
Lemma two_bytes_ok : (forall x, length (two_bytes x) = 2%nat) /\ forall x, of_bytes (two_bytes x) = x.
Proof. split; intros x; [reflexivity|]. unfold of_bytes, two_bytes. pose proof (Z.div_mod x 256 ltac:(lia)). lia. Qed.
Example three_numbers : make_buffer 2 two_bytes [] [513; 7; 256] = Some (map Some [1; 2; 7; 0; 0; 1]) /\
  iterate 2 of_bytes 10 (map Some [1; 2; 7; 0; 0; 1]) 0 = Some (Some [513; 7; 256]).
Proof. split; vm_compute; reflexivity. Qed.
Lemma large_buffer : exists xs : list Z, make_buffer 2 two_bytes [] xs = None.
Proof. exists (repeat 0 (Z.to_nat (2 ^ 31))). apply too_large. rewrite repeat_length. rewrite Z2Nat.id by lia. lia. Qed.
