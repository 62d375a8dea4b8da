(** Property C18: user operators, precision conversion and the counters. *)
From Coq Require Import List Arith Bool ZArith Lia.
From Verif Require Import Base OperatorModel OperatorProofs.
Import ListNotations.

(** Column [c] of buffer [b]. *)
Definition column {val} (h : @heap val) (b c : nat) : option (list val) :=
  match cell h b with Some x => nth_error (bcols x) c | None => None end.
(** Apart from the [n] columns at [p], memory is what it was: same contents, same
    element types, nothing freed and nothing left allocated. *)
Definition unchanged_except {val} (h h' : @heap val) (p : ptr) (n : nat) : Prop :=
  (forall b c, ~ (b = fst p /\ snd p <= c < snd p + n) -> column h' b c = column h b c) /\
  (forall b, option_map bty (cell h' b) = option_map bty (cell h b)).
(** Buffers not handed out yet are not live. *)
Definition fresh {val} (h : @heap val) : Prop := forall b, next h <= b -> cell h b = None.

(** Total number of vectors in the successful invocations of an operator. *)
Definition vectors {val} (sel : opkind -> bool) (tr : list (@call val)) : Z :=
  fold_right Z.add 0%Z
    (map (fun c => if sel (c_op c) && (c_ierr c =? 0)%Z
                   then Z.of_nat (length (c_in c)) else 0%Z) tr).
Definition is_matvec (k : opkind) : bool :=
  match k with op_precond => false | _ => true end.
Definition is_precond (k : opkind) : bool :=
  match k with op_precond => true | _ => false end.

Section C18.
Context {val : Type}.
Variable cast : dtype -> dtype -> val -> val.
Variable junk : list val.
Variable working : dtype.
Variable supported : dtype -> bool.
Variable user : list (@call val) -> opkind -> @cols val -> @cols val * Z.
Variable prm : oparams.

Notation apply_op := (apply_op cast junk working supported false user).

Lemma length_mm : forall (f : val -> val) (l : @cols val), length (map (map f) l) = length l.
Proof. intros; apply map_length. Qed.
Lemma mm_id : forall (f : val -> val) (l : @cols val),
  (forall v, f v = v) -> map (map f) l = l.
Proof.
  intros f l H. rewrite <- (map_id l) at 2. apply map_ext. intro a.
  rewrite <- (map_id a) at 2. now apply map_ext.
Qed.

Lemma apply_op_correct : forall k t s V W bs blk x old y,
  (forall v, cast working working v = v) ->
  supported working = true ->
  norm working t = working \/ supported (norm working t) = true ->
  fresh (o_heap s) ->
  (0 < blk)%Z ->
  let n := Z.to_nat blk in
  let Vb := (fst V, snd V + bs) in let Wb := (fst W, snd W + bs) in
  read_cols (o_heap s) working Vb n = Some x ->
  read_cols (o_heap s) working Wb n = Some old ->
  apart Vb Wb n = true ->
  let t' := norm working t in
  let x' := map (map (cast working t')) x in
  user (o_trace s) k x' = (y, 0%Z) -> length y = n ->
  exists h',
    apply_op k t t s V W bs blk =
      Some (0%Z, mkOst h' (o_matvecs s + blk) (o_preconds s)
                   (mkCall k t' x' 0%Z :: o_trace s)) /\
    read_cols h' working Wb n = Some (map (map (cast t' working)) y) /\
    unchanged_except (o_heap s) h' Wb n.
Proof.
  intros k t s V W bs blk x old y CI SW ST F POS n Vb Wb RV RW AP t' x' U LY.
  assert (WF : forall h (b : @buf val), cell h (fst Wb) = Some b -> True) by auto. clear WF.
  destruct (read_inv _ _ _ _ _ RV) as (bv & CV & TV & LV & XV & NX).
  destruct (read_inv _ _ _ _ _ RW) as (bw & CW & TW & LW & _ & _).
  assert (NW : norm working working = working) by (unfold norm; now destruct working).
  unfold apply_op. destruct (Z.leb_spec blk 0); [lia|].
  fold n. fold Vb Wb.
  assert (N0 : n <> 0) by lia.
  assert (FV : fst Vb < next (o_heap s)).
  { destruct (le_lt_dec (next (o_heap s)) (fst Vb)); auto. rewrite F in CV by auto. discriminate. }
  assert (FW : fst Wb < next (o_heap s)).
  { destruct (le_lt_dec (next (o_heap s)) (fst Wb)); auto. rewrite F in CW by auto. discriminate. }
  assert (FIN : forall h', 
     (forall c, cell h' c = if c =? fst Wb
        then Some (mkBuf working (splice (bcols bw) (snd Wb) (map (map (cast t' working)) y)))
        else cell (o_heap s) c) ->
     read_cols h' working Wb n = Some (map (map (cast t' working)) y) /\
     unchanged_except (o_heap s) h' Wb n).
  { intros h' E. assert (LS : snd Wb + length (map (map (cast t' working)) y) <= length (bcols bw))
      by (rewrite length_mm; lia).
    split.
    - erewrite read_intro; [|rewrite E, Nat.eqb_refl; reflexivity|reflexivity|
        cbn [bcols]; rewrite splice_length; auto].
      cbn [bcols]. rewrite <- LY at 1. rewrite <- (length_mm (cast t' working)).
      now rewrite splice_read.
    - split.
      + intros b c NB. unfold column. rewrite E. destruct (Nat.eqb_spec b (fst Wb)); auto.
        subst b. rewrite CW. cbn [bcols]. apply splice_nth; auto.
        rewrite length_mm, LY. intro. apply NB. auto.
      + intro b. rewrite E. destruct (Nat.eqb_spec b (fst Wb)); auto. subst b.
        rewrite CW. cbn. now rewrite TW. }
  unfold guard, astype. rewrite NW. fold t'.
  destruct (dtype_eqb_spec t' working) as [EW|NEW].
  - (* same precision: operate in place *)
    rewrite EW, dtype_eqb_refl. cbn [negb andb Z.eqb bind].
    unfold invoke. rewrite AP. cbn [with_heap o_heap o_trace o_matvecs o_preconds].
    rewrite RV. cbn [bind].
    assert (x' = x) by (unfold x'; rewrite EW; now apply mm_id).
    rewrite H0 in U. rewrite U. rewrite LY, Nat.eqb_refl.
    erewrite (write_intro (o_heap s)); [|exact CW|exact TW|lia]. cbn [bind negb Z.eqb o_heap].
    assert (RW2 : read_cols (set (o_heap s) (fst Wb)
       (Some (mkBuf working (splice (bcols bw) (snd Wb) y)))) working Wb n = Some y).
    { erewrite read_intro; [|rewrite cell_set, Nat.eqb_refl; reflexivity|reflexivity|
        cbn [bcols]; rewrite splice_length; lia]. cbn [bcols].
      rewrite <- LY at 1. now rewrite splice_read by lia. }
    unfold copy_T. rewrite dtype_eqb_refl.
    destruct (Nat.eqb_spec n 0); [contradiction|]. cbn [orb].
    cbn [Z.ltb Z.compare]. rewrite RW2. cbn [bind].
    erewrite write_intro; [|rewrite cell_set, Nat.eqb_refl; reflexivity|reflexivity|
        cbn [bcols]; rewrite splice_length; lia].
    cbn [bind negb Z.eqb Z.ltb Z.compare andb bcols].
    unfold free_unless_same. rewrite !ptr_eqb_refl. cbn [bind o_matvecs o_preconds o_trace].
    eexists. split; [rewrite H0; reflexivity|].
    rewrite EW in FIN. apply FIN. intro c. rewrite !cell_set. destruct (c =? fst Wb); auto.
    do 2 f_equal. rewrite mm_id by auto.
    pose proof (splice_id (splice (bcols bw) (snd Wb) y) (snd Wb) (length y)) as ID.
    rewrite splice_read in ID by lia. apply ID. rewrite splice_length; lia.
  - (* different precision: work on converted copies *)
    assert (ST' : supported t' = true) by (destruct ST; [contradiction|auto]).
    assert (NEW2 : dtype_eqb working t' = false)
      by (destruct (dtype_eqb_spec working t'); congruence).
    rewrite NEW2, ST'. cbn [negb andb Z.ltb Z.compare].
    unfold alloc at 1. cbn [fst snd].
    set (nx := next (o_heap s)).
    set (h1 := mkHeap _ _ : @heap val).
    unfold copy_T at 1. rewrite NEW2. destruct (Nat.eqb_spec n 0); [contradiction|]. cbn [orb].
    assert (PE : ptr_eqb Vb (nx, 0) = false).
    { unfold ptr_eqb. cbn [fst snd]. destruct (Nat.eqb_spec (fst Vb) nx); auto. lia. }
    rewrite PE, SW.
    assert (RV1 : read_cols h1 working Vb n = Some x).
    { rewrite XV. apply read_intro; auto. unfold h1. cbn [cell].
      destruct (Nat.eqb_spec (fst Vb) nx); auto; lia. }
    rewrite RV1. cbn [bind]. fold x'.
    assert (LX' : length x' = n) by (unfold x'; rewrite length_mm; auto).
    erewrite (write_intro h1); [|unfold h1; cbn [cell fst]; rewrite Nat.eqb_refl; reflexivity|
       reflexivity|cbn [snd bcols]; rewrite repeat_length; lia].
    cbn [bind negb Z.eqb fst snd bcols]. rewrite splice_full by (rewrite repeat_length; lia).
    set (h2 := set h1 nx _).
    cbn [bind negb Z.eqb Z.ltb Z.compare andb].
    unfold alloc at 1. cbn [fst snd bind Z.eqb negb].
    assert (NX2 : next h2 = S nx) by reflexivity. rewrite NX2.
    set (h3 := mkHeap _ _ : @heap val).
    assert (C3 : forall c, cell h3 c = if c =? S nx then Some (mkBuf t' (repeat junk n)) else
        if c =? nx then Some (mkBuf t' x') else cell (o_heap s) c).
    { intro c. unfold h3, h2, h1. cbn [cell set].
      destruct (c =? S nx); auto. destruct (c =? nx); auto. }
    unfold invoke. cbn [with_heap o_heap o_trace o_matvecs o_preconds].
    assert (AP2 : apart (nx, 0) (S nx, 0) n = true).
    { unfold apart. cbn [fst snd]. destruct (Nat.eqb_spec nx (S nx)); auto; lia. }
    rewrite AP2.
    erewrite (read_intro h3); [|cbn [fst]; rewrite C3; destruct (Nat.eqb_spec nx (S nx)); [lia|];
       rewrite Nat.eqb_refl; reflexivity|reflexivity|cbn [snd bcols]; lia].
    cbn [bind snd bcols skipn]. assert (FX : firstn n x' = x') by (rewrite firstn_all2; auto; lia). rewrite FX.
    rewrite U, LY, Nat.eqb_refl.
    erewrite (write_intro h3); [|cbn [fst]; rewrite C3, Nat.eqb_refl; reflexivity|reflexivity|
       cbn [snd bcols]; rewrite repeat_length; lia].
    cbn [bind snd fst bcols o_heap]. rewrite splice_full by (rewrite repeat_length; lia).
    set (h4 := set h3 (S nx) _).
    assert (C4 : forall c, cell h4 c = if c =? S nx then Some (mkBuf t' y) else
        if c =? nx then Some (mkBuf t' x') else cell (o_heap s) c).
    { intro c. unfold h4. rewrite cell_set, C3. destruct (c =? S nx); auto. }
    cbn [negb Z.eqb Z.ltb Z.compare andb]. rewrite dtype_eqb_refl. cbn [negb andb].
    assert (NEW3 : dtype_eqb t' working = false)
      by (destruct (dtype_eqb_spec t' working); congruence).
    unfold copy_T. rewrite NEW3. destruct (Nat.eqb_spec n 0); [contradiction|]. cbn [orb].
    assert (PE2 : ptr_eqb (S nx, 0) Wb = false).
    { unfold ptr_eqb. cbn [fst snd]. destruct (Nat.eqb_spec (S nx) (fst Wb)); auto. lia. }
    rewrite PE2, ST'.
    erewrite (read_intro h4); [|cbn [fst]; rewrite C4, Nat.eqb_refl; reflexivity|reflexivity|
       cbn [snd bcols]; lia].
    cbn [bind snd bcols skipn]. assert (FY : firstn n y = y) by (rewrite firstn_all2; auto; lia). rewrite FY.
    assert (C4W : cell h4 (fst Wb) = Some bw).
    { rewrite C4. destruct (Nat.eqb_spec (fst Wb) (S nx)); [lia|].
      destruct (Nat.eqb_spec (fst Wb) nx); [lia|]. auto. }
    erewrite (write_intro h4); [|exact C4W|exact TW|rewrite length_mm; lia].
    cbn [bind negb Z.eqb]. set (h5 := set h4 (fst Wb) _).
    assert (C5 : forall c, cell h5 c =
        if c =? fst Wb then Some (mkBuf working (splice (bcols bw) (snd Wb) (map (map (cast t' working)) y)))
        else if c =? S nx then Some (mkBuf t' y) else
        if c =? nx then Some (mkBuf t' x') else cell (o_heap s) c).
    { intro c. unfold h5. rewrite cell_set, C4. auto. }
    unfold free_unless_same. rewrite PE. unfold free at 1. cbn [snd fst Nat.eqb].
    rewrite C5. destruct (Nat.eqb_spec nx (fst Wb)); [lia|].
    destruct (Nat.eqb_spec nx (S nx)); [lia|]. rewrite Nat.eqb_refl. cbn [bind].
    assert (PE3 : ptr_eqb Wb (S nx, 0) = false).
    { unfold ptr_eqb. cbn [fst snd]. destruct (Nat.eqb_spec (fst Wb) (S nx)); auto. lia. }
    rewrite PE3. unfold free. cbn [snd fst Nat.eqb]. rewrite cell_set, C5.
    destruct (Nat.eqb_spec (S nx) nx); [lia|].
    destruct (Nat.eqb_spec (S nx) (fst Wb)); [lia|]. rewrite Nat.eqb_refl.
    cbn [bind o_matvecs o_preconds o_trace].
    eexists. split; [reflexivity|]. apply FIN. intro c. rewrite !cell_set, C5.
    destruct (Nat.eqb_spec c (S nx)) as [->|].
    { destruct (Nat.eqb_spec (S nx) (fst Wb)); [lia|]. symmetry; apply F. lia. }
    destruct (Nat.eqb_spec c nx) as [->|]; auto.
    destruct (Nat.eqb_spec nx (fst Wb)); [lia|]. symmetry; apply F. lia.
Qed.

Notation matrixMatvec := (matrixMatvec cast junk working supported false user prm).
Notation massMatrixMatvec := (massMatrixMatvec cast junk working supported false user prm).
Notation applyPreconditioner := (applyPreconditioner cast junk working supported false user prm).
Notation run_ops := (run_ops cast junk working supported false user prm).

(** The matrix callback receives exactly the requested columns, converted to the
    precision it asked for; its answer, converted back, becomes the requested
    columns of the result; nothing else in memory changes; the counter grows by
    the number of vectors. *)
Theorem C18_matrix_product : forall s V W bs blk x old y,
  (forall v, cast working working v = v) ->
  supported working = true ->
  norm working (matrix_type prm) = working \/ supported (norm working (matrix_type prm)) = true ->
  fresh (o_heap s) -> (0 < blk)%Z ->
  let n := Z.to_nat blk in
  let Vb := (fst V, snd V + bs) in let Wb := (fst W, snd W + bs) in
  read_cols (o_heap s) working Vb n = Some x ->
  read_cols (o_heap s) working Wb n = Some old ->
  apart Vb Wb n = true ->
  let t := norm working (matrix_type prm) in
  let x' := map (map (cast working t)) x in
  user (o_trace s) op_matrix x' = (y, 0%Z) -> length y = n ->
  exists h',
    matrixMatvec s V W bs blk =
      Some (0%Z, mkOst h' (o_matvecs s + blk) (o_preconds s)
                   (mkCall op_matrix t x' 0%Z :: o_trace s)) /\
    read_cols h' working Wb n = Some (map (map (cast t working)) y) /\
    unchanged_except (o_heap s) h' Wb n.
Proof. intros. eapply apply_op_correct; eauto. Qed.

(** The same for the mass matrix, provided both operators use one precision. *)
Theorem C18_mass_product : forall s V W bs blk x old y,
  (forall v, cast working working v = v) ->
  supported working = true ->
  norm working (mass_type prm) = norm working (matrix_type prm) ->
  norm working (mass_type prm) = working \/ supported (norm working (mass_type prm)) = true ->
  fresh (o_heap s) -> (0 < blk)%Z ->
  let n := Z.to_nat blk in
  let Vb := (fst V, snd V + bs) in let Wb := (fst W, snd W + bs) in
  read_cols (o_heap s) working Vb n = Some x ->
  read_cols (o_heap s) working Wb n = Some old ->
  apart Vb Wb n = true ->
  let t := norm working (mass_type prm) in
  let x' := map (map (cast working t)) x in
  user (o_trace s) op_mass x' = (y, 0%Z) -> length y = n ->
  exists h',
    massMatrixMatvec s V W bs blk =
      Some (0%Z, mkOst h' (o_matvecs s + blk) (o_preconds s)
                   (mkCall op_mass t x' 0%Z :: o_trace s)) /\
    read_cols h' working Wb n = Some (map (map (cast t working)) y) /\
    unchanged_except (o_heap s) h' Wb n.
Proof.
  intros s V W bs blk x old y CI SW ET ST F POS n Vb Wb RV RW AP t x' U LY.
  assert (E : massMatrixMatvec s V W bs blk =
              apply_op op_mass (mass_type prm) (mass_type prm) s V W bs blk).
  { unfold OperatorModel.massMatrixMatvec, OperatorModel.apply_op, guard, astype.
    rewrite ET. reflexivity. }
  rewrite E. eapply apply_op_correct; eauto.
Qed.

(** An operator that reports an error ends the call with the user-failure code
    and is not counted. *)
Theorem C18_operator_error : forall k t tb s V W bs blk code s',
  apply_op k t tb s V W bs blk = Some (code, s') ->
  (exists c rest, o_trace s' = c :: rest /\ rest = o_trace s /\ c_ierr c <> 0%Z) ->
  code = PRIMME_USER_FAILURE /\ o_matvecs s' = o_matvecs s /\ o_preconds s' = o_preconds s.
Proof.
  intros k t tb s V W bs blk code s' R (c & rest & T & TR & IE).
  assert (NL : forall (l : list (@call val)) c, l <> c :: l).
  { induction l; intros ? E; [discriminate|]. injection E as E1 E2. eapply IHl; exact E2. }
  unfold OperatorModel.apply_op in R. destruct (blk <=? 0)%Z.
  { injection R as <- <-. subst rest. exfalso; eapply NL; eauto. }
  unfold guard in R.
  destruct (astype _ _ _ _ _ _ _ _ _ _ _ _ _) as [[[c1 h1] V0]|]; [|discriminate]. cbn [bind] in R.
  destruct (c1 =? 0)%Z.
  2:{ injection R as <- <-. subst rest. cbn in T. exfalso; eapply NL; eauto. }
  destruct (astype _ _ _ _ _ h1 _ _ _ _ _ _ _) as [[[c2 h2] W0]|]; [|discriminate]. cbn [bind] in R.
  destruct (c2 =? 0)%Z.
  2:{ injection R as <- <-. subst rest. cbn in T. exfalso; eapply NL; eauto. }
  unfold invoke in R. destruct (apart V0 W0 _); [|discriminate].
  destruct (read_cols _ _ V0 _); [|discriminate]. cbn [bind] in R.
  destruct (user _ k c0) as [y ierr]. destruct (length y =? _); [|discriminate].
  destruct (write_cols _ _ W0 y); [|discriminate]. cbn [bind] in R.
  destruct (Z.eqb_spec ierr 0) as [->|NZ]; cbn [negb] in R.
  - exfalso. assert (HT : c_ierr (hd c (o_trace s')) = 0%Z); [|rewrite T in HT; contradiction].
    destruct (astype _ _ _ _ _ _ W0 _ _ _ _ _ _) as [[[c3 h3] W1]|]; [|discriminate]. cbn [bind] in R.
    destruct (c3 =? 0)%Z.
    + destruct (free_unless_same _ V0 h3); [|discriminate]. cbn [bind] in R.
      destruct (free_unless_same _ W0 h0); [|discriminate]. cbn [bind] in R.
      injection R as <- <-. reflexivity.
    + injection R as <- <-. reflexivity.
  - injection R as <- <-. cbn. auto.
Qed.

(** The counters and the history, for every sequence of operator applications and
    every user behaviour: the counters grow by exactly the number of vectors in
    the successful invocations, no callback is ever invoked with an empty block,
    and after an invocation that reported an error there are no others and the
    sequence ends with a nonzero code. *)
Definition history_ok (s s' : @ostate val) (code : Z) : Prop :=
  exists new, o_trace s' = new ++ o_trace s /\
    o_matvecs s' = (o_matvecs s + vectors is_matvec new)%Z /\
    o_preconds s' = (o_preconds s + vectors is_precond new)%Z /\
    Forall (fun c => length (c_in c) > 0) new /\
    (code = 0%Z -> Forall (fun c => c_ierr c = 0%Z) new) /\
    Forall (fun c => c_ierr c = 0%Z) (tl new).

(** Both matrix operators use one precision; otherwise the copy-back of a mass
    product goes wrong, see [C18_mass_precision_refuted]. *)
Definition one_precision : Prop :=
  norm working (mass_type prm) = norm working (matrix_type prm).

Lemma vectors_app : forall sel (a b : list (@call val)),
  vectors sel (a ++ b) = (vectors sel a + vectors sel b)%Z.
Proof.
  intros sel a b. unfold vectors. induction a; [reflexivity|]. cbn [app map fold_right].
  rewrite IHa. lia.
Qed.
Lemma history_refl : forall s h code, history_ok s (with_heap s h) code.
Proof.
  intros. exists []. cbn. repeat split; auto; try lia; constructor.
Qed.

Lemma copy_T_next : forall h x xt n y yt code h',
  copy_T cast supported false h x xt n y yt = Some (code, h') -> next h' = next h.
Proof.
  intros h x xt n y yt code h' R. unfold copy_T in R. cbn [orb] in R.
  destruct (dtype_eqb xt yt).
  - destruct (n =? 0); [injection R as <- <-; auto|].
    destruct (read_cols h yt x n); [|discriminate]. cbn [bind] in R.
    destruct (write_cols h yt y c) eqn:E; [|discriminate]. cbn [bind] in R.
    injection R as <- <-. apply write_inv in E. destruct E as (b & _ & _ & _ & ->). reflexivity.
  - destruct (n =? 0); [injection R as <- <-; auto|].
    destruct (ptr_eqb x y); [injection R as <- <-; auto|].
    destruct (supported xt); [|injection R as <- <-; auto].
    destruct (read_cols h xt x n); [|discriminate]. cbn [bind] in R.
    destruct (write_cols h yt y _) eqn:E; [|discriminate]. cbn [bind] in R.
    injection R as <- <-. apply write_inv in E. destruct E as (b & _ & _ & _ & ->). reflexivity.
Qed.
Lemma copy_T_code : forall h x xt n y yt code h',
  copy_T cast supported false h x xt n y yt = Some (code, h') -> code <> 0%Z ->
  xt <> yt /\ (ptr_eqb x y = true \/ supported xt = false).
Proof.
  intros h x xt n y yt code h' R NZ. unfold copy_T in R. cbn [orb] in R.
  destruct (dtype_eqb_spec xt yt).
  - exfalso. destruct (n =? 0); [injection R as <- <-; auto|].
    destruct (read_cols h yt x n); [|discriminate]. cbn [bind] in R.
    destruct (write_cols h yt y c) eqn:E; [|discriminate]. cbn [bind] in R.
    injection R as <- <-. auto.
  - split; auto. destruct (n =? 0); [injection R as <- <-; congruence|].
    destruct (ptr_eqb x y); [auto|].
    destruct (supported xt); [|auto].
    destruct (read_cols h xt x n); [|discriminate]. cbn [bind] in R.
    destruct (write_cols h yt y _) eqn:E; [|discriminate]. cbn [bind] in R.
    injection R as <- <-. congruence.
Qed.
Lemma norm_working : norm working working = working.
Proof. unfold norm; now destruct working. Qed.

(** Converting an operand: in place, or into a new buffer. *)
Lemma astype_alloc : forall h x n y t cp h' p,
  astype cast junk working supported false h x n working y t 1 cp = Some (0%Z, h', p) ->
  (norm working t = working /\ p = x /\ h' = h) \/
  (norm working t <> working /\ supported (norm working t) = true /\ p = (next h, 0) /\
   next h' = S (next h)).
Proof.
  intros h x n y t cp h' p R. unfold astype in R. rewrite norm_working in R.
  destruct (dtype_eqb_spec (norm working t) working) as [E|NE]; cbn [negb andb] in R.
  - left. rewrite E, dtype_eqb_refl in R. cbn [negb andb Z.eqb] in R. injection R as <- <-. auto.
  - right. destruct (supported (norm working t)); cbn [negb] in R; [|discriminate].
    destruct (dtype_eqb_spec working (norm working t)); [congruence|]. cbn [andb Z.ltb Z.compare] in R.
    unfold alloc in R. cbn [fst snd] in R. repeat split; auto.
    + destruct cp; [destruct (copy_T _ _ _ _ _ _ _ _ _) as [[c h2]|] eqn:EC; [|discriminate]|];
      cbn [bind] in R.
      * destruct (negb (c =? 0)%Z); cbn [andb] in R; injection R; auto.
      * cbn in R. injection R; auto.
    + destruct cp; [destruct (copy_T _ _ _ _ _ _ _ _ _) as [[c h2]|] eqn:EC; [|discriminate]|];
      cbn [bind] in R.
      * apply copy_T_next in EC. cbn in EC.
        destruct (negb (c =? 0)%Z); cbn [andb] in R; injection R; intros; subst; auto.
      * cbn in R. injection R; intros; subst; auto.
Qed.
(** Converting a result back cannot be refused. *)
Lemma astype_back : forall h x n t y a code h' p,
  (a = 0 \/ a = -1)%Z ->
  astype cast junk working supported false h x n t y working a true = Some (code, h', p) ->
  (norm working t = working \/ (supported (norm working t) = true /\ ptr_eqb x y = false)) ->
  code = 0%Z.
Proof.
  intros h x n t y a code h' p A R H. unfold astype in R. rewrite norm_working, dtype_eqb_refl in R.
  cbn [negb andb] in R.
  destruct (dtype_eqb (norm working t) working && negb (a =? 0)%Z); [injection R; auto|].
  assert ((0 <? a)%Z = false) by (destruct A; subst; auto). rewrite H0 in R.
  destruct (copy_T _ _ _ _ _ _ _ _ _) as [[c h2]|] eqn:EC; [|discriminate]. cbn [bind] in R.
  destruct (Z.eqb_spec c 0) as [->|NZ]; cbn [negb] in R.
  - destruct ((a <? 0)%Z && negb (ptr_eqb x y)).
    + destruct (free h2 x); [|discriminate]. cbn [bind] in R. injection R; auto.
    + injection R; auto.
  - destruct (copy_T_code _ _ _ _ _ _ _ _ EC NZ) as (NE & B).
    destruct H as [|[H1 H2]]; [congruence|]. destruct B; congruence.
Qed.

Lemma invoke_inv : forall s k t v w n ierr s1,
  invoke user s k t v w n = Some (ierr, s1) ->
  exists x, length x = n /\ o_trace s1 = mkCall k t x ierr :: o_trace s /\
    o_matvecs s1 = o_matvecs s /\ o_preconds s1 = o_preconds s /\
    next (o_heap s1) = next (o_heap s).
Proof.
  intros s k t v w n ierr s1 R. unfold invoke in R. destruct (apart v w n); [|discriminate].
  destruct (read_cols _ t v n) eqn:E; [|discriminate]. cbn [bind] in R.
  apply read_inv in E. destruct E as (_ & _ & _ & _ & _ & L).
  destruct (user _ k c) as [y e]. destruct (length y =? n); [|discriminate].
  destruct (write_cols _ t w y) eqn:EW; [|discriminate]. cbn [bind] in R. injection R as <- <-.
  apply write_inv in EW. destruct EW as (b & _ & _ & _ & ->).
  exists c. auto.
Qed.

Lemma ptr_neq : forall (p q : ptr), fst p <> fst q -> ptr_eqb p q = false.
Proof. intros. unfold ptr_eqb. destruct (Nat.eqb_spec (fst p) (fst q)); auto; lia. Qed.

Lemma apply_op_history : forall k t tb s V W bs blk code s',
  is_matvec k = true -> norm working t = norm working tb -> fst W < next (o_heap s) ->
  apply_op k t tb s V W bs blk = Some (code, s') -> history_ok s s' code.
Proof.
  intros k t tb s V W bs blk code s' K ET VW R. unfold OperatorModel.apply_op in R.
  destruct (Z.leb_spec blk 0).
  { injection R as <- <-. destruct s. apply history_refl. }
  unfold guard in R.
  destruct (astype _ _ _ _ _ _ _ _ _ _ _ _ _) as [[[c1 h1] V0]|] eqn:E1; [|discriminate]. cbn [bind] in R.
  destruct (Z.eqb_spec c1 0) as [->|]; [|injection R as <- <-; apply history_refl].
  destruct (astype _ _ _ _ _ h1 _ _ _ _ _ _ _) as [[[c2 h2] W0]|] eqn:E2; [|discriminate]. cbn [bind] in R.
  destruct (Z.eqb_spec c2 0) as [->|]; [|injection R as <- <-; apply history_refl].
  apply astype_alloc in E1, E2.
  destruct (invoke _ _ _ _ _ _ _) as [[ierr s1]|] eqn:EI; [|discriminate]. cbn [bind] in R.
  apply invoke_inv in EI. destruct EI as (x & LX & TR & MV & PC & NX).
  cbn [with_heap o_trace o_matvecs o_preconds o_heap] in TR, MV, PC, NX.
  assert (NP : is_precond k = false) by now destruct k.
  destruct (Z.eqb_spec ierr 0) as [->|NZ]; cbn [negb] in R.
  - destruct (astype _ _ _ _ _ _ W0 _ _ _ _ _ _) as [[[c3 h3] W1]|] eqn:E3; [|discriminate].
    assert (c3 = 0%Z).
    { eapply (astype_back _ _ _ _ _ 0%Z); [auto|exact E3|]. rewrite <- ET.
      destruct E2 as [(A & _)|(A & B & C & _)]; [auto|right]. split; auto.
      subst W0. apply ptr_neq. cbn [fst].
      destruct E1 as [(_ & _ & ->)|(_ & _ & _ & ->)]; lia. }
    subst c3. cbn [bind Z.eqb] in R.
    destruct (free_unless_same _ V0 h3); [|discriminate]. cbn [bind] in R.
    destruct (free_unless_same _ W0 _); [|discriminate]. cbn [bind] in R.
    injection R as <- <-. exists [mkCall k (norm working t) x 0%Z].
    cbn [o_trace o_matvecs o_preconds app tl]. rewrite TR, MV, PC.
    unfold vectors. cbn [map fold_right c_op c_ierr c_in]. rewrite K, NP, LX. cbn [andb Z.eqb].
    repeat split; auto; try lia; repeat constructor. cbn. lia.
  - injection R as <- <-. exists [mkCall k (norm working t) x ierr].
    cbn [o_trace o_matvecs o_preconds app tl]. rewrite TR, MV, PC.
    unfold vectors. cbn [map fold_right c_op c_ierr c_in].
    destruct (Z.eqb_spec ierr 0); [contradiction|]. rewrite !andb_false_r.
    repeat split; auto; try lia; repeat constructor; try discriminate. cbn. lia.
Qed.

Lemma precond_history : forall s V W blk code s',
  fst W < next (o_heap s) ->
  applyPreconditioner s V W blk = Some (code, s') -> history_ok s s' code.
Proof.
  intros s V W blk code s' VW R. unfold OperatorModel.applyPreconditioner in R.
  destruct (Z.leb_spec blk 0).
  { injection R as <- <-. destruct s. apply history_refl. }
  destruct (use_precond prm).
  2:{ destruct (read_cols _ _ _ _); [|discriminate]. cbn [bind] in R.
      destruct (write_cols _ _ _ _); [|discriminate]. cbn [bind] in R.
      injection R as <- <-. apply history_refl. }
  set (t := precond_type prm) in *.
  unfold guard in R.
  destruct (astype _ _ _ _ _ _ _ _ _ _ _ _ _) as [[[c1 h1] V0]|] eqn:E1; [|discriminate]. cbn [bind] in R.
  destruct (Z.eqb_spec c1 0) as [->|]; [|injection R as <- <-; apply history_refl].
  destruct (astype _ _ _ _ _ h1 _ _ _ _ _ _ _) as [[[c2 h2] W0]|] eqn:E2; [|discriminate]. cbn [bind] in R.
  destruct (Z.eqb_spec c2 0) as [->|]; [|injection R as <- <-; apply history_refl].
  apply astype_alloc in E1, E2.
  destruct (invoke _ _ _ _ _ _ _) as [[ierr s1]|] eqn:EI; [|discriminate]. cbn [bind] in R.
  apply invoke_inv in EI. destruct EI as (x & LX & TR & MV & PC & NX).
  cbn [with_heap o_trace o_matvecs o_preconds o_heap] in TR, MV, PC, NX.
  destruct (Z.eqb_spec ierr 0) as [->|NZ]; cbn [negb] in R.
  - cbn [o_heap] in R. destruct (free_unless_same _ V0 _); [|discriminate]. cbn [bind] in R.
    destruct (astype _ _ _ _ _ _ W0 _ _ _ _ _ _) as [[[c3 h3] W1]|] eqn:E3; [|discriminate].
    assert (c3 = 0%Z).
    { eapply (astype_back _ _ _ _ _ (-1)%Z); [auto|exact E3|].
      destruct E2 as [(A & _)|(A & B & C & _)]; [auto|right]. split; auto.
      subst W0. apply ptr_neq. cbn [fst].
      destruct E1 as [(_ & _ & ->)|(_ & _ & _ & ->)]; lia. }
    subst c3. cbn [bind Z.eqb] in R.
    injection R as <- <-. exists [mkCall op_precond (norm working t) x 0%Z].
    cbn [o_trace o_matvecs o_preconds app tl with_heap]. rewrite TR, MV, PC.
    unfold vectors. cbn [map fold_right c_op c_ierr c_in is_matvec is_precond andb Z.eqb]. rewrite LX.
    repeat split; auto; try lia; repeat constructor. cbn. lia.
  - injection R as <- <-. exists [mkCall op_precond (norm working t) x ierr].
    cbn [o_trace o_matvecs o_preconds app tl]. rewrite TR, MV, PC.
    unfold vectors. cbn [map fold_right c_op c_ierr c_in].
    destruct (Z.eqb_spec ierr 0); [contradiction|]. rewrite !andb_false_r.
    repeat split; auto; try lia; repeat constructor; try discriminate. cbn. lia.
Qed.

Theorem C18_counters : forall l s code s', one_precision ->
  run_ops s l = Some (code, s') -> history_ok s s' code.
Proof.
  intros l s code s' OP. revert s. induction l as [|r l IH]; intros s R; cbn [OperatorModel.run_ops] in R.
  - injection R as <- <-. destruct s. apply history_refl.
  - destruct (serve _ _ _ _ _ _ _ s r) as [[c s1]|] eqn:E; [|discriminate]. cbn [bind] in R.
    assert (H : history_ok s s1 c).
    { unfold serve in E. destruct (Nat.ltb_spec (fst (target_of r)) (next (o_heap s))) as [VW|]; [|discriminate].
      destruct r; cbn [target_of] in VW.
      - eapply apply_op_history; [| |exact VW|exact E]; reflexivity.
      - eapply apply_op_history; [| |exact VW|exact E]; [reflexivity|exact OP].
      - eapply precond_history; eauto. }
    destruct (Z.eqb_spec c 0) as [->|NZ].
    + destruct H as (n1 & T1 & M1 & P1 & F1 & Z1 & _).
      destruct (IH s1 R) as (n2 & T2 & M2 & P2 & F2 & Z2 & L2).
      exists (n2 ++ n1). rewrite T2, T1, M2, M1, P2, P1, !vectors_app, app_assoc.
      repeat split; try lia.
      * apply Forall_app; auto.
      * intro C. apply Forall_app; auto.
      * destruct n2; cbn [app tl]; [apply Forall_inv_tail with (a := mkCall op_mass working [] 0%Z)|].
        -- destruct n1; cbn [tl]; repeat constructor. apply Forall_inv_tail with (1 := Z1 eq_refl).
        -- cbn in L2. apply Forall_app; auto.
    + injection R as <- <-. exact H.
Qed.
(** The preconditioner: same contract, other counter. *)
Theorem C18_preconditioner_product : forall s V W blk x old y,
  (forall v, cast working working v = v) ->
  supported working = true ->
  norm working (precond_type prm) = working \/ supported (norm working (precond_type prm)) = true ->
  fresh (o_heap s) -> (0 < blk)%Z -> use_precond prm = true ->
  let n := Z.to_nat blk in
  read_cols (o_heap s) working V n = Some x ->
  read_cols (o_heap s) working W n = Some old ->
  apart V W n = true ->
  let t := norm working (precond_type prm) in
  let x' := map (map (cast working t)) x in
  user (o_trace s) op_precond x' = (y, 0%Z) -> length y = n ->
  exists h',
    applyPreconditioner s V W blk =
      Some (0%Z, mkOst h' (o_matvecs s) (o_preconds s + blk)
                   (mkCall op_precond t x' 0%Z :: o_trace s)) /\
    read_cols h' working W n = Some (map (map (cast t working)) y) /\
    unchanged_except (o_heap s) h' W n.
Proof.
  intros s V W blk x old y CI SW ST F POS UP n RV RW AP t' x' U LY.
  rename V into Vb, W into Wb.
  destruct (read_inv _ _ _ _ _ RV) as (bv & CV & TV & LV & XV & NX).
  destruct (read_inv _ _ _ _ _ RW) as (bw & CW & TW & LW & _ & _).
  assert (NW : norm working working = working) by (unfold norm; now destruct working).
  unfold OperatorModel.applyPreconditioner. destruct (Z.leb_spec blk 0); [lia|]. rewrite UP.
  fold n.
  assert (N0 : n <> 0) by lia.
  assert (FV : fst Vb < next (o_heap s)).
  { destruct (le_lt_dec (next (o_heap s)) (fst Vb)); auto. rewrite F in CV by auto. discriminate. }
  assert (FW : fst Wb < next (o_heap s)).
  { destruct (le_lt_dec (next (o_heap s)) (fst Wb)); auto. rewrite F in CW by auto. discriminate. }
  assert (FIN : forall h', 
     (forall c, cell h' c = if c =? fst Wb
        then Some (mkBuf working (splice (bcols bw) (snd Wb) (map (map (cast t' working)) y)))
        else cell (o_heap s) c) ->
     read_cols h' working Wb n = Some (map (map (cast t' working)) y) /\
     unchanged_except (o_heap s) h' Wb n).
  { intros h' E. assert (LS : snd Wb + length (map (map (cast t' working)) y) <= length (bcols bw))
      by (rewrite length_mm; lia).
    split.
    - erewrite read_intro; [|rewrite E, Nat.eqb_refl; reflexivity|reflexivity|
        cbn [bcols]; rewrite splice_length; auto].
      cbn [bcols]. rewrite <- LY at 1. rewrite <- (length_mm (cast t' working)).
      now rewrite splice_read.
    - split.
      + intros b c NB. unfold column. rewrite E. destruct (Nat.eqb_spec b (fst Wb)); auto.
        subst b. rewrite CW. cbn [bcols]. apply splice_nth; auto.
        rewrite length_mm, LY. intro. apply NB. auto.
      + intro b. rewrite E. destruct (Nat.eqb_spec b (fst Wb)); auto. subst b.
        rewrite CW. cbn. now rewrite TW. }
  unfold guard, astype. rewrite NW. fold t'.
  destruct (dtype_eqb_spec t' working) as [EW|NEW].
  - (* same precision: operate in place *)
    rewrite EW, dtype_eqb_refl. cbn [negb andb Z.eqb bind].
    unfold invoke. rewrite AP. cbn [with_heap o_heap o_trace o_matvecs o_preconds].
    rewrite RV. cbn [bind].
    assert (x' = x) by (unfold x'; rewrite EW; now apply mm_id).
    rewrite H0 in U. rewrite U. rewrite LY, Nat.eqb_refl.
    erewrite (write_intro (o_heap s)); [|exact CW|exact TW|lia]. cbn [bind negb Z.eqb o_heap].
    cbn [o_heap o_matvecs o_preconds o_trace]. unfold free_unless_same. rewrite !ptr_eqb_refl.
    cbn [bind].
    eexists. split; [rewrite H0; reflexivity|].
    cbn [with_heap o_heap]. rewrite EW in FIN. apply FIN. intro c. rewrite !cell_set.
    destruct (c =? fst Wb); auto. do 2 f_equal. rewrite mm_id by auto. reflexivity.
  - (* different precision: work on converted copies *)
    assert (ST' : supported t' = true) by (destruct ST; [contradiction|auto]).
    assert (NEW2 : dtype_eqb working t' = false)
      by (destruct (dtype_eqb_spec working t'); congruence).
    rewrite NEW2, ST'. cbn [negb andb Z.ltb Z.compare].
    unfold alloc at 1. cbn [fst snd].
    set (nx := next (o_heap s)).
    set (h1 := mkHeap _ _ : @heap val).
    unfold copy_T at 1. rewrite NEW2. destruct (Nat.eqb_spec n 0); [contradiction|]. cbn [orb].
    assert (PE : ptr_eqb Vb (nx, 0) = false).
    { unfold ptr_eqb. cbn [fst snd]. destruct (Nat.eqb_spec (fst Vb) nx); auto. lia. }
    rewrite PE, SW.
    assert (RV1 : read_cols h1 working Vb n = Some x).
    { rewrite XV. apply read_intro; auto. unfold h1. cbn [cell].
      destruct (Nat.eqb_spec (fst Vb) nx); auto; lia. }
    rewrite RV1. cbn [bind]. fold x'.
    assert (LX' : length x' = n) by (unfold x'; rewrite length_mm; auto).
    erewrite (write_intro h1); [|unfold h1; cbn [cell fst]; rewrite Nat.eqb_refl; reflexivity|
       reflexivity|cbn [snd bcols]; rewrite repeat_length; lia].
    cbn [bind negb Z.eqb fst snd bcols]. rewrite splice_full by (rewrite repeat_length; lia).
    set (h2 := set h1 nx _).
    cbn [bind negb Z.eqb Z.ltb Z.compare andb].
    unfold alloc at 1. cbn [fst snd bind Z.eqb negb].
    assert (NX2 : next h2 = S nx) by reflexivity. rewrite NX2.
    set (h3 := mkHeap _ _ : @heap val).
    assert (C3 : forall c, cell h3 c = if c =? S nx then Some (mkBuf t' (repeat junk n)) else
        if c =? nx then Some (mkBuf t' x') else cell (o_heap s) c).
    { intro c. unfold h3, h2, h1. cbn [cell set].
      destruct (c =? S nx); auto. destruct (c =? nx); auto. }
    unfold invoke. cbn [with_heap o_heap o_trace o_matvecs o_preconds].
    assert (AP2 : apart (nx, 0) (S nx, 0) n = true).
    { unfold apart. cbn [fst snd]. destruct (Nat.eqb_spec nx (S nx)); auto; lia. }
    rewrite AP2.
    erewrite (read_intro h3); [|cbn [fst]; rewrite C3; destruct (Nat.eqb_spec nx (S nx)); [lia|];
       rewrite Nat.eqb_refl; reflexivity|reflexivity|cbn [snd bcols]; lia].
    cbn [bind snd bcols skipn]. assert (FX : firstn n x' = x') by (rewrite firstn_all2; auto; lia). rewrite FX.
    rewrite U, LY, Nat.eqb_refl.
    erewrite (write_intro h3); [|cbn [fst]; rewrite C3, Nat.eqb_refl; reflexivity|reflexivity|
       cbn [snd bcols]; rewrite repeat_length; lia].
    cbn [bind snd fst bcols o_heap]. rewrite splice_full by (rewrite repeat_length; lia).
    set (h4 := set h3 (S nx) _).
    assert (C4 : forall c, cell h4 c = if c =? S nx then Some (mkBuf t' y) else
        if c =? nx then Some (mkBuf t' x') else cell (o_heap s) c).
    { intro c. unfold h4. rewrite cell_set, C3. destruct (c =? S nx); auto. }
    cbn [negb Z.eqb Z.ltb Z.compare andb o_heap o_matvecs o_preconds o_trace].
    unfold free_unless_same. rewrite PE. unfold free at 1. cbn [snd fst Nat.eqb].
    rewrite C4. destruct (Nat.eqb_spec nx (S nx)); [lia|]. rewrite Nat.eqb_refl. cbn [bind].
    set (h4' := set h4 nx None).
    assert (C4' : forall c, cell h4' c = if c =? nx then None else
        if c =? S nx then Some (mkBuf t' y) else cell (o_heap s) c).
    { intro c. unfold h4'. rewrite cell_set, C4. destruct (c =? nx); auto. }
    rewrite dtype_eqb_refl. cbn [negb andb].
    assert (NEW3 : dtype_eqb t' working = false)
      by (destruct (dtype_eqb_spec t' working); congruence).
    cbn [andb Z.ltb Z.compare].
    unfold copy_T. rewrite NEW3. destruct (Nat.eqb_spec n 0); [contradiction|]. cbn [orb].
    assert (PE2 : ptr_eqb (S nx, 0) Wb = false).
    { unfold ptr_eqb. cbn [fst snd]. destruct (Nat.eqb_spec (S nx) (fst Wb)); auto. lia. }
    rewrite PE2, ST'.
    erewrite (read_intro h4'); [|cbn [fst]; rewrite C4', Nat.eqb_refl; destruct (Nat.eqb_spec (S nx) nx); [lia|reflexivity]|reflexivity|
       cbn [snd bcols]; lia].
    cbn [bind snd bcols skipn]. assert (FY : firstn n y = y) by (rewrite firstn_all2; auto; lia). rewrite FY.
    assert (C4W : cell h4' (fst Wb) = Some bw).
    { rewrite C4'. destruct (Nat.eqb_spec (fst Wb) nx); [lia|].
      destruct (Nat.eqb_spec (fst Wb) (S nx)); [lia|]. auto. }
    erewrite (write_intro h4'); [|exact C4W|exact TW|rewrite length_mm; lia].
    cbn [bind negb Z.eqb]. set (h5 := set h4' (fst Wb) _).
    unfold free. cbn [snd fst Nat.eqb].
    assert (C5 : forall c, cell h5 c =
        if c =? fst Wb then Some (mkBuf working (splice (bcols bw) (snd Wb) (map (map (cast t' working)) y)))
        else cell h4' c) by (intro; reflexivity).
    rewrite C5, C4'. destruct (Nat.eqb_spec (S nx) (fst Wb)); [lia|].
    destruct (Nat.eqb_spec (S nx) nx); [lia|]. rewrite Nat.eqb_refl. cbn [bind with_heap Z.eqb].
    cbn [o_matvecs o_preconds o_trace].
    eexists. split; [reflexivity|]. apply FIN. intro c. rewrite !cell_set, C5.
    destruct (Nat.eqb_spec c (S nx)) as [->|].
    { destruct (Nat.eqb_spec (S nx) (fst Wb)); [lia|]. symmetry; apply F. lia. }
    rewrite C4'. destruct (Nat.eqb_spec c (fst Wb)); auto.
    destruct (Nat.eqb_spec c nx) as [->|]; [symmetry; apply F; lia|].
    destruct (Nat.eqb_spec c (S nx)); auto; lia.
Qed.

(** Preconditioning switched off: the block is copied and nothing is counted. *)
Theorem C18_no_preconditioner : forall s V W blk x old,
  (0 < blk)%Z -> use_precond prm = false ->
  let n := Z.to_nat blk in
  read_cols (o_heap s) working V n = Some x ->
  read_cols (o_heap s) working W n = Some old ->
  exists h', applyPreconditioner s V W blk = Some (0%Z, with_heap s h') /\
    read_cols h' working W n = Some x /\ unchanged_except (o_heap s) h' W n.
Proof.
  intros s V W blk x old POS UP n RV RW.
  destruct (read_inv _ _ _ _ _ RV) as (bv & CV & TV & LV & XV & NX).
  destruct (read_inv _ _ _ _ _ RW) as (bw & CW & TW & LW & _ & _).
  unfold OperatorModel.applyPreconditioner. destruct (Z.leb_spec blk 0); [lia|]. rewrite UP. fold n.
  rewrite RV. cbn [bind]. erewrite write_intro; [|exact CW|exact TW|lia]. cbn [bind].
  eexists. split; [reflexivity|]. split.
  - erewrite read_intro; [|rewrite cell_set, Nat.eqb_refl; reflexivity|reflexivity|
      cbn [bcols]; rewrite splice_length; lia].
    cbn [bcols]. rewrite <- NX at 1. now rewrite splice_read by lia.
  - split.
    + intros b c NB. unfold column. rewrite cell_set. destruct (Nat.eqb_spec b (fst W)); auto.
      subst b. rewrite CW. cbn [bcols]. apply splice_nth; [lia|]. intro. apply NB. split; auto; lia.
    + intro b. rewrite cell_set. destruct (Nat.eqb_spec b (fst W)); auto. subst b.
      rewrite CW. cbn. now rewrite TW.
Qed.
End C18.

(** A concrete run: elements are integers, narrowing from double to float drops
    the last bit; the matrix doubles each entry and works in float. *)
Section Instance.
Open Scope Z_scope.
Definition icast (a b : dtype) (v : Z) : Z :=
  match a, b with op_double, op_float => 2 * (v / 2) | _, _ => v end.
Definition iuser (tr : list (@call Z)) (k : opkind) (x : list (list Z)) : list (list Z) * Z :=
  (map (map (Z.mul 2)) x, if (length tr =? 2)%nat then 7 else 0).
Definition iprm : oparams := mkOp op_float op_default op_default true.
Definition iheap : @heap Z :=
  mkHeap (fun c => match c with
                   | 0%nat => Some (mkBuf op_double [[1; 2]; [3; 5]; [6; 7]])
                   | 1%nat => Some (mkBuf op_double [[0; 0]; [0; 0]; [9; 9]])
                   | _ => None end) 2.
Definition istate : @ostate Z := mkOst iheap 0 0 [].
Definition isupp (t : dtype) : bool := true.

Example C18_nonvacuous :
  fresh iheap /\
  match matrixMatvec icast [] op_double isupp false iuser iprm istate (0, 0)%nat (1, 0)%nat 0 2 with
  | Some (code, s) => code = 0 /\ o_matvecs s = 2 /\
      cell (o_heap s) 1 = Some (mkBuf op_double [[0; 4]; [4; 8]; [9; 9]]) /\
      cell (o_heap s) 2 = None /\ map c_in (o_trace s) = [[[0; 2]; [2; 4]]]
  | None => False
  end.
Proof.
  split.
  - intros b H. do 2 (destruct b; [cbn in H; lia|]). reflexivity.
  - vm_compute. repeat split.
Qed.
(** The third invocation fails: three invocations, four counted vectors. *)
Example C18_counters_nonvacuous :
  match run_ops icast [] op_double isupp false iuser (mkOp op_float op_float op_default true) istate
    [Matvec (0, 0)%nat (1, 0)%nat 0 2; Mass (0, 1)%nat (1, 1)%nat 0 2; Matvec (0, 0)%nat (1, 0)%nat 0 0;
     Precond (0, 0)%nat (1, 0)%nat 1; Matvec (0, 0)%nat (1, 0)%nat 0 1] with
  | Some (code, s) => code = -1 /\ o_matvecs s = 4 /\ o_preconds s = 0 /\ length (o_trace s) = 3%nat
  | None => False
  end.
Proof. vm_compute. repeat split. Qed.

(** The mass matrix asks for the working precision and the matrix for another
    one: a successful mass product is refused with "function unavailable" and not
    counted.  With two different non-working precisions the result buffer is read
    as the wrong type. *)
Theorem C18_mass_precision_refuted :
  (match massMatrixMatvec icast [] op_double isupp false iuser (mkOp op_float op_double op_default true)
     istate (0, 0)%nat (1, 0)%nat 0 2 with
   | Some (code, s) => code = PRIMME_FUNCTION_UNAVAILABLE /\ o_matvecs s = 0 /\
       map c_ierr (o_trace s) = [0]
   | None => False end) /\
  massMatrixMatvec icast [] op_double isupp false iuser (mkOp op_double op_float op_default true)
     istate (0, 0)%nat (1, 0)%nat 0 2 = None.
Proof. vm_compute. repeat split. Qed.
End Instance.

Print Assumptions C18_matrix_product.
Print Assumptions C18_mass_product.
Print Assumptions C18_operator_error.
Print Assumptions C18_counters.
Print Assumptions C18_mass_precision_refuted.
Print Assumptions C18_preconditioner_product.
Print Assumptions C18_no_preconditioner.
