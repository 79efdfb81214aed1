(** What a program with diagnostics and readers should see and write: [ShareSpec] for the grids; a
    diagnostic writes the inner cells of the grid it was initialised with, with the values they
    have then, whoever has written them; a reader changes the inner cells for all copies. *)
From Verif Require Import Vec GridSpec StorageModel GridModel ShareModel ShareSpec HdfModel HdfSpec LiveModel.

Section LiveSpec.
  Context {V : Type}.
  Variable rank : nat.

  (** A diagnostic that has been initialised: the group of grids it belongs to, the shape of the
      grid at that time, the inner cells, the global domain. *)
  Record target := mkTarget { t_grp : nat; t_lo : vec; t_hi : vec; t_ilo : vec; t_ihi : vec; t_gmin : vec; t_gmax : vec }.
  (** Its two grids (which the rest of the program does not use). *)
  Record diag := mkDiag { a_field : nat; a_grid : nat; a_target : option target }.
  Definition last := (@ast V * (nat -> option diag))%type.
  Definition lainit : last := (ainit, fun _ => None).

  Definition inner (ghost : option Z) (lo hi : vec) : vec * vec :=
    match ghost with Some n => (map (fun l => l + n) lo, map (fun x => x - n) hi) | None => (lo, hi) end.
  Fixpoint inside (lo hi p : vec) : bool :=
    match lo, hi, p with
    | [], [], [] => true
    | l :: lo', h :: hi', x :: p' => (l <=? x) && (x <=? h) && inside lo' hi' p'
    | _, _, _ => false
    end.
  (** The value the data set has for cell [p] of the domain that starts at [gmin]. *)
  Definition in_file (ds : dataset V) (gmin p : vec) : option V :=
    nth_error (d_data ds) (Z.to_nat (c_index (d_dims ds) (relative gmin p))).

  Definition lastep (o : lop V) (z : last) : last :=
    let (a, m) := z in
    match o with
    | LProg o => (astep o a, m)
    | LNew d hf hc => (astep (New hc) (astep (New hf) a), upd m d (Some (mkDiag hf hc None)))
    | LInit d src t ghost gmin gmax =>
        match m d, a_arr a (a_grp a src) with
        | Some k, Some (lo, hi, _) =>
            (mkA (a_live a) (upd (upd (upd (a_grp a) (a_field k) (a_grp a src)) t (a_grp a src)) (a_grid k) (a_grp a src)) (a_arr a) (a_n a),
             upd m d (Some (mkDiag (a_field k) (a_grid k)
               (Some (mkTarget (a_grp a src) lo hi (fst (inner ghost lo hi)) (snd (inner ghost lo hi)) gmin gmax)))))
        | _, _ => z
        end
    | LOut _ => z
    | LIn d file =>
        match m d with
        | Some (mkDiag _ _ (Some t)) =>
            match a_arr a (t_grp t) with
            | Some (lo, hi, v) =>
                (mkA (a_live a) (a_grp a)
                     (upd (a_arr a) (t_grp t)
                        (Some (lo, hi, fun p => if inside (t_ilo t) (t_ihi t) p then in_file file (t_gmin t) p else v p)))
                     (a_n a), m)
            | None => z
            end
        | _ => z
        end
    end.

  Definition mentions (o : op V) (x : nat) : Prop :=
    match o with
    | New h | Destroy h | Resize h _ _ | Write h _ _ | Read h _ | Bounds h => x = h
    | Copy h src | Assign h src => x = h \/ x = src
    end.
  (** Fields are in C order. *)
  Definition llegal (lazy : bool) (o : lop V) (z : last) : Prop :=
    let (a, m) := z in
    match o with
    | LProg o => alegal COrder o a /\ assign_safe lazy o a /\
                 forall d k, m d = Some k -> ~ mentions o (a_field k) /\ ~ mentions o (a_grid k)
    | LNew d hf hc => m d = None /\ ~ In hf (a_live a) /\ ~ In hc (a_live a) /\ hf <> hc
    | LInit d src t ghost gmin gmax =>
        exists hf hc lo hi v, m d = Some (mkDiag hf hc None) /\ In src (a_live a) /\ ~ In t (a_live a) /\
          (forall d' k, m d' = Some k -> src <> a_field k /\ src <> a_grid k) /\
          a_arr a (a_grp a src) = Some (lo, hi, v) /\
          small gmin gmax /\ small lo hi /\ box_ok (fst (inner ghost lo hi)) (snd (inner ghost lo hi)) /\
          match ghost with Some n => 0 <= n | None => True end /\
          part_of (fst (inner ghost lo hi)) (snd (inner ghost lo hi)) gmin gmax
    | LOut d | LIn d _ =>
        exists hf hc t, m d = Some (mkDiag hf hc (Some t)) /\
          (** the grid has the shape it had when the diagnostic was initialised *)
          (exists v, a_arr a (t_grp t) = Some (t_lo t, t_hi t, v)) /\
          match o with LIn _ file => d_dims file = sizes (t_gmin t) (t_gmax t) /\ complete file | _ => True end
    end.
  Fixpoint llegal_run (lazy : bool) (os : list (lop V)) (z : last) : Prop :=
    match os with [] => True | o :: os' => llegal lazy o z /\ llegal_run lazy os' (lastep o z) end.

  (** The two kinds of what is observed. *)
  Fixpoint seen (l : list (lout V)) : list (out V) :=
    match l with [] => [] | LSee x :: l' => x :: seen l' | LFile _ _ :: l' => seen l' end.
  Fixpoint files (l : list (lout V)) : list (container * heap V) :=
    match l with [] => [] | LFile c h :: l' => (c, h) :: files l' | LSee _ :: l' => files l' end.

  (** What the program sees. *)
  Fixpoint lobs_run (os : list (lop V)) (z : last) (obs : list (out V)) : Prop :=
    match os with
    | [] => obs = []
    | LProg o :: os' => exists o1 o2, obs = o1 ++ o2 /\ aobs rank o (fst z) o1 /\ lobs_run os' (lastep (LProg o) z) o2
    | o :: os' => lobs_run os' (lastep o z) obs
    end.
  (** What it writes: for each output the inner cells, the domain and the values. *)
  Record output := mkOutput { o_lo : vec; o_hi : vec; o_gmin : vec; o_gmax : vec; o_val : vec -> option V }.
  Fixpoint outputs (os : list (lop V)) (z : last) : list output :=
    match os with
    | [] => []
    | o :: os' =>
        match o with
        | LOut d => match snd z d with
                    | Some (mkDiag _ _ (Some t)) =>
                        match a_arr (fst z) (t_grp t) with
                        | Some (_, _, v) => [mkOutput (t_ilo t) (t_ihi t) (t_gmin t) (t_gmax t) v]
                        | None => []
                        end
                    | _ => []
                    end
        | _ => []
        end ++ outputs os' (lastep o z)
    end.
  (** No cell belongs to two of the outputs. *)
  Fixpoint apart (l : list output) : Prop :=
    match l with
    | [] => True
    | e :: l' => (forall e' p, In e' l' -> in_box (o_lo e) (o_hi e) p -> in_box (o_lo e') (o_hi e') p -> False) /\ apart l'
    end.
End LiveSpec.
