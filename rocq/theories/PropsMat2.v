(** C68, continued: guesses, options, convergence tests and results of the MATLAB function primme_eigs. *)
From Coq Require Import String List Arith ZArith Bool Lia Permutation.
From Verif Require Import Base SvdsModel SvdsProofs SpecR SpecMat MatModel PropsSvdsOp PropsMat.
Import ListNotations.

(** ** Guesses and constraints *)
Lemma chunks : forall K n k (d : list K), length d = n * k ->
  exists cs, Forall (fun c => length c = n) cs /\ length cs = k /\ d = concat cs.
Proof.
  intros K n k. induction k as [|k IH]; intros d L.
  - exists []. split; [constructor|]. split; [reflexivity|]. destruct d; [reflexivity|]. cbn in L. lia.
  - destruct (IH (skipn n d)) as (cs & F & Lc & E); [rewrite skipn_length; lia|].
    exists (firstn n d :: cs). split; [constructor; [rewrite firstn_length; lia|exact F]|].
    split; [cbn; lia|]. cbn [concat]. rewrite <- E, firstn_skipn. reflexivity.
Qed.

Lemma write_concat : forall K n (cs : list (list K)) pre mid post, Forall (fun c => length c = n) cs ->
  length mid = length (concat cs) ->
  write_cols (pre ++ mid ++ post) (length pre) n cs = Some (pre ++ concat cs ++ post).
Proof.
  intros K n. induction cs as [|c cs IH]; intros pre mid post F L.
  - destruct mid; [reflexivity|discriminate].
  - inversion F as [|? ? Fc Fs]; subst. cbn [write_cols concat]. cbn [concat] in L. rewrite app_length in L.
    rewrite (write_at_eq _ _ pre (firstn (length c) mid) c (skipn (length c) mid ++ post)).
    + cbn [bind]. rewrite !app_assoc. rewrite <- (app_assoc (pre ++ c)).
      replace (length pre + length c) with (length (pre ++ c)) by (rewrite app_length; reflexivity).
      rewrite IH; [rewrite <- !app_assoc; reflexivity|exact Fs|rewrite skipn_length; lia].
    + rewrite (app_assoc (firstn (length c) mid)), firstn_skipn. reflexivity.
    + reflexivity.
    + rewrite firstn_length. lia.
Qed.

Definition plain {K} (a : @arr K) : Prop := a_sparse a = false /\ well_stored a.

(** *** C68_guesses: the constraints reach the solver first, then the guesses, each entry in its
    place, in an array with room for every vector; other numbers of rows, and complex guesses
    in a real run, are errors. *)
Theorem C68_guesses : forall K cplx n numEvals (ortho v0 : option (@arr K)) junk,
  (forall a, ortho = Some a \/ v0 = Some a -> plain a) ->
  let oc := match ortho with Some a => a_cols a | None => 0 end in
  let ini := match v0 with Some a => a_cols a | None => 0 end in
  match start_vectors cplx n numEvals ortho v0 junk with
  | Ok m => length m = n * (oc + Nat.max numEvals ini) /\
      firstn (n * oc) m = match ortho with Some a => a_data a | None => [] end /\
      firstn (n * ini) (skipn (n * oc) m) = match v0 with Some a => a_data a | None => [] end
  | Err => exists a, (ortho = Some a \/ v0 = Some a) /\ (a_rows a <> n \/ (a_cplx a = true /\ cplx = false))
  | Bad => False
  end.
Proof.
  intros K cplx n numEvals ortho v0 junk P. unfold start_vectors.
  set (oc := match ortho with Some a => a_cols a | None => 0 end).
  set (ini := match v0 with Some a => a_cols a | None => 0 end).
  set (d1 := match ortho with Some a => a_data a | None => [] end).
  set (d2 := match v0 with Some a => a_data a | None => [] end).
  cbv zeta.
  destruct (match ortho with Some x => a_rows x =? n | None => true end) eqn:R1; cbn [andb negb].
  2: { destruct ortho as [a|]; [|discriminate]. exists a. split; [auto|]. left. now apply Nat.eqb_neq. }
  destruct (match v0 with Some x => a_rows x =? n | None => true end) eqn:R2; cbn [negb].
  2: { destruct v0 as [a|]; [|discriminate]. exists a. split; [auto|]. left. now apply Nat.eqb_neq. }
  assert (L1 : length d1 = n * oc).
  { unfold d1, oc. destruct ortho as [a|]; [|cbn; lia]. destruct (P a (or_introl eq_refl)) as [SP W].
    apply Nat.eqb_eq in R1. rewrite (W SP), R1. reflexivity. }
  assert (L2 : length d2 = n * ini).
  { unfold d2, ini. destruct v0 as [a|]; [|cbn; lia]. destruct (P a (or_intror eq_refl)) as [SP W].
    apply Nat.eqb_eq in R2. rewrite (W SP), R2. reflexivity. }
  destruct (0 <? oc + ini) eqn:Z.
  - unfold copy_mxArray. cbn [full a_rows a_cols a_cls a_cplx a_data].
    rewrite !Nat.eqb_refl. cbn [andb]. rewrite orb_true_r.
    destruct ((match ortho with Some x => a_cplx x | None => false end
             || match v0 with Some x => a_cplx x | None => false end) && negb cplx) eqn:CC.
    + cbn [rbind]. apply andb_true_iff in CC. destruct CC as [C1 C2].
      assert (cplx = false) by (now destruct cplx).
      apply orb_true_iff in C1. destruct C1 as [C1|C1].
      * destruct ortho as [a|]; [|discriminate]. exists a. auto.
      * destruct v0 as [a|]; [|discriminate]. exists a. auto.
    + destruct (chunks K n (oc + ini) (d1 ++ d2)) as (cs & F & Lc & E); [rewrite app_length; lia|].
      rewrite E, (read_concat0 n (oc + ini) cs F Lc). cbn [rbind].
      assert (Lr : repeat junk (n * (oc + Nat.max numEvals ini))
                 = [] ++ repeat junk (n * (oc + ini)) ++ repeat junk (n * (oc + Nat.max numEvals ini) - n * (oc + ini))).
      { cbn [app]. rewrite <- repeat_app. f_equal.
        assert (n * (oc + ini) <= n * (oc + Nat.max numEvals ini)) by (apply Nat.mul_le_mono_l; lia). lia. }
      rewrite Lr. pose proof (write_concat K n cs [] (repeat junk (n * (oc + ini)))) as W. cbn [length] in W.
      rewrite W; [|exact F|rewrite repeat_length, <- E, app_length; lia].
      cbn [app]. rewrite <- E. rewrite <- app_assoc. split.
      { rewrite !app_length, repeat_length, L1, L2.
        assert (n * (oc + ini) <= n * (oc + Nat.max numEvals ini)) by (apply Nat.mul_le_mono_l; lia). lia. }
      split.
      * rewrite firstn_app, L1, Nat.sub_diag. cbn [firstn]. rewrite app_nil_r. rewrite <- L1. apply firstn_all.
      * rewrite skipn_app, L1, Nat.sub_diag. rewrite <- L1, skipn_all. cbn [skipn app].
        rewrite firstn_app, <- L2, firstn_all, Nat.sub_diag. cbn [firstn]. apply app_nil_r.
  - apply Nat.ltb_ge in Z. assert (oc = 0 /\ ini = 0) as [O I] by lia. clearbody oc ini. subst oc ini.
    rewrite Nat.mul_0_r in *. split; [rewrite repeat_length; reflexivity|].
    split; [destruct d1; [reflexivity|discriminate]|destruct d2; [reflexivity|discriminate]].
Qed.

(** ** Options and convergence tests *)

(** *** C68_int_options_partial: whole numbers of the range of int given for an option of that
    type are set as they are. *)
Theorem C68_int_options_partial : forall c z, c <> CLogical -> c <> CChar ->
  (-2147483648 <= z <= 2147483647)%Z -> int_option c (Whole z) = Ok z.
Proof.
  intros c z H1 H2 [L U]. apply Z.leb_le in L, U.
  destruct c; try contradiction; cbn [int_option]; unfold in_int; rewrite L, U; reflexivity.
Qed.

(** *** C68_true_refuted: the documented true for an option is an error. *)
Theorem C68_true_refuted : forall v, int_option CLogical v = Err.
Proof. reflexivity. Qed.

(** *** C68_infinite_refuted: the documented Inf for a limit is converted to int, which is not
    defined, and so are limits beyond the range of int. *)
Theorem C68_infinite_refuted : int_option CDouble NotFinite = Bad /\
  forall z, (2147483647 < z)%Z -> int_option CDouble (Whole z) = Bad.
Proof.
  split; [reflexivity|]. intros z H. cbn [int_option]. unfold in_int.
  rewrite (proj2 (Z.leb_gt z 2147483647)) by exact H. rewrite andb_false_r. reflexivity.
Qed.

(** *** C68_test_partial: a whole number other than zero as answer of a convergence test makes the
    pair converged, and in double precision the test is given the value of the pair. *)
Theorem C68_test_partial : forall V z (e : V), (-2147483648 <= z <= 2147483647)%Z ->
  (exists b, test_answer (Whole z) = Ok b /\ (b = true <-> z <> 0%Z)) /\ test_value false e = Ok e.
Proof.
  intros V z e [L U]. split; [|reflexivity]. apply Z.leb_le in L, U. cbn [test_answer]. unfold in_int. rewrite L, U.
  eexists. split; [reflexivity|]. rewrite negb_true_iff, Z.eqb_neq. reflexivity.
Qed.

(** *** C68_test_fraction_refuted: a number between zero and one as answer is taken as zero. *)
Theorem C68_test_fraction_refuted : test_answer (Between 0) = Ok false.
Proof. reflexivity. Qed.

(** *** C68_test_single_refuted: in single precision the value given to the test is read through a
    pointer to another type. *)
Theorem C68_test_single_refuted : forall V (e : V), test_value true e = Bad.
Proof. reflexivity. Qed.

(** ** Results *)
Section Results.
Context {E V : Type}.
Variable ge : E -> E -> bool.
Variable nonneg : E -> bool.
Hypothesis ge_total : forall a b, ge a b = false -> ge b a = true.
Notation result := (eigs_result ge nonneg).

Lemma insert_perm : forall x l, Permutation (insert ge x l) (x :: l).
Proof.
  intros x l. induction l as [|y l IH]; cbn [insert]; [reflexivity|].
  destruct (ge (fst x) (fst y)); [reflexivity|]. rewrite IH. apply perm_swap.
Qed.

Lemma sort_perm : forall l : list E, Permutation (sort_descend ge l) (combine l (seq 0 (length l))).
Proof.
  intros l. unfold sort_descend. induction (combine l (seq 0 (length l))) as [|p q IH]; cbn [fold_right]; [reflexivity|].
  rewrite insert_perm, IH. reflexivity.
Qed.

Fixpoint descending (l : list E) : Prop :=
  match l with
  | a :: (b :: _) as t => ge a b = true /\ descending t
  | _ => True
  end.

Lemma insert_desc : forall x l, descending (map fst l) -> descending (map fst (insert ge x l)).
Proof.
  intros x l. induction l as [|y l IH]; intros D; cbn [insert map]; [exact I|].
  destruct (ge (fst x) (fst y)) eqn:G; [cbn [map]; split; [exact G|exact D]|].
  cbn [map] in *. destruct l as [|z l]; cbn [insert map] in *.
  - split; [apply ge_total; exact G|exact I].
  - destruct D as [D1 D2]. specialize (IH D2).
    destruct (ge (fst x) (fst z)) eqn:G2; cbn [map] in *.
    + split; [apply ge_total; exact G|exact IH].
    + split; [exact D1|exact IH].
Qed.

Lemma sort_desc : forall l, descending (map fst (sort_descend ge l)).
Proof.
  intros l. unfold sort_descend. induction (combine l (seq 0 (length l))) as [|p q IH]; cbn [fold_right]; [exact I|].
  apply insert_desc. exact IH.
Qed.

Lemma pick_spec : forall X (d : X) l ind, (forall i, In i ind -> i < length l) ->
  pick ind l = Ok (map (fun i => nth i l d) ind).
Proof.
  intros X d l ind. induction ind as [|i ind IH]; intros H; cbn [pick map]; [reflexivity|].
  rewrite (nth_error_nth' l d) by (apply H; left; reflexivity).
  rewrite IH by (intros j I; apply H; right; exact I). reflexivity.
Qed.

Lemma combine_nth_seq : forall (d : V) (ev : list E) ve off, off + length ev <= length ve ->
  map (fun p => (fst p, nth (snd p) ve d)) (combine ev (seq off (length ev))) = combine ev (firstn (length ev) (skipn off ve)).
Proof.
  intros d ev. induction ev as [|e ev IH]; intros ve off L; [reflexivity|].
  cbn [length seq combine map fst snd] in *. rewrite IH by lia.
  destruct (skipn off ve) as [|v t] eqn:SK.
  { assert (length (skipn off ve) = 0) by (rewrite SK; reflexivity). rewrite skipn_length in H. lia. }
  cbn [firstn combine]. assert (T : skipn (S off) ve = t).
  { replace (S off) with (off + 1) by lia. rewrite <- skipn_add, SK. reflexivity. }
  rewrite T. f_equal. f_equal. rewrite <- (firstn_skipn off ve), SK.
  rewrite app_nth2 by (rewrite firstn_length; lia). rewrite firstn_length.
  replace (off - Nat.min off (length ve)) with 0 by lia. reflexivity.
Qed.

Lemma numRet_le : forall l, numRet nonneg l <= length l.
Proof. induction l as [|r l IH]; cbn; [lia|]. destruct (nonneg r); lia. Qed.

(** What the solver leaves: as many values as norms, a vector for each, and no more pairs counted
    than have a norm. *)
Definition left_by_solver (s : solved (E := E) (V := V)) : Prop :=
  length (s_evals s) = length (s_norms s) /\ length (s_norms s) <= length (s_vecs s) /\
  s_init s <= numRet nonneg (s_norms s).

(** The pairs to return: those found before a limit was met, or all with a norm. *)
Definition wanted (unconverged : bool) (s : solved (E := E) (V := V)) : nat :=
  if (s_ret s =? -3)%Z && negb unconverged then s_init s else numRet nonneg (s_norms s).

Lemma combine_map_both : forall (d : V) (ve : list V) (l : list (E * nat)),
  combine (map fst l) (map (fun i => nth i ve d) (map snd l)) = map (fun p => (fst p, nth (snd p) ve d)) l.
Proof. intros d ve l. induction l as [|p l IH]; [reflexivity|]. cbn [map combine]. f_equal. exact IH. Qed.

(** *** C68_returned: when primme_eigs returns, every value returned is next to its vector, and they
    are the pairs that the solver found: those before a limit was met, with a warning, or all of
    them; sorted when the target is an inner one, otherwise in the order of the solver. *)
Theorem C68_returned : forall own unc target s X D R w, left_by_solver s ->
  result own unc target s = Ok (X, D, R, w) ->
  let q := wanted unc s in
  (s_ret s = 0 \/ s_ret s = -3)%Z /\ (w = true <-> s_ret s = (-3)%Z) /\
  length D = q /\ R = firstn q (s_norms s) /\
  Permutation (combine D (firstn q X)) (combine (firstn q (s_evals s)) (firstn q (s_vecs s))) /\
  (is_sorted target = true -> descending D /\ length X = q) /\
  (is_sorted target = false -> D = firstn q (s_evals s) /\ firstn q X = firstn q (s_vecs s)).
Proof.
  intros own unc target s X D R w (L1 & L2 & L3) H q. unfold eigs_result, mex_return, finish in H.
  pose proof (numRet_le (s_norms s)) as LN.
  set (ve0 := if own then s_vecs s else firstn (numRet nonneg (s_norms s)) (s_vecs s)) in H.
  assert (LV : numRet nonneg (s_norms s) <= length ve0).
  { unfold ve0. destruct own; [lia|]. rewrite firstn_length. lia. }
  assert (FV : forall k, k <= numRet nonneg (s_norms s) -> firstn k ve0 = firstn k (s_vecs s)).
  { intros k Hk. unfold ve0. destruct own; [reflexivity|]. rewrite firstn_firstn. f_equal. lia. }
  assert (exists ve, q <= length ve /\ firstn q ve = firstn q (s_vecs s) /\
     rbind (if negb (s_ret s =? -3)%Z && negb (s_ret s =? 0)%Z then Err else Ok tt) (fun _ =>
       rbind (if is_sorted target then
                rbind (pick (map snd (sort_descend ge (firstn q (s_evals s)))) ve)
                  (fun ve => Ok (map fst (sort_descend ge (firstn q (s_evals s))), ve))
              else Ok (firstn q (s_evals s), ve)) (fun '(ev, ve) =>
       Ok (ve, ev, firstn q (s_norms s), (s_ret s =? -3)%Z))) = Ok (X, D, R, w)) as G.
  { unfold q, wanted. destruct ((s_ret s =? -3)%Z && negb unc) eqn:C.
    - apply andb_true_iff in C. destruct C as [C _].
      unfold upto in H. rewrite !(proj2 (Nat.leb_le _ _)) in H by (rewrite ?firstn_length; lia).
      cbn [rbind] in H. rewrite !firstn_firstn in H. rewrite !Nat.min_l in H by lia.
      exists (firstn (s_init s) ve0). split; [rewrite firstn_length; lia|].
      split; [rewrite firstn_firstn, Nat.min_id; apply FV; exact L3|].
      destruct (negb (s_ret s =? -3)%Z && negb (s_ret s =? 0)%Z); [discriminate|].
      cbn [rbind]. exact H.
    - cbn [rbind] in H. exists ve0. split; [exact LV|]. split; [apply FV; lia|].
      destruct (negb (s_ret s =? -3)%Z && negb (s_ret s =? 0)%Z); [discriminate|].
      cbn [rbind]. exact H. }
  clear H. destruct G as (ve & LQ & FQ & H).
  assert (LE : length (firstn q (s_evals s)) = q).
  { rewrite firstn_length. unfold q, wanted. destruct ((s_ret s =? -3)%Z && negb unc); lia. }
  destruct (negb (s_ret s =? -3)%Z && negb (s_ret s =? 0)%Z) eqn:RC; [discriminate|]. cbn [rbind] in H.
  assert (RET : (s_ret s = 0 \/ s_ret s = -3)%Z).
  { destruct (s_ret s =? -3)%Z eqn:A; [right; now apply Z.eqb_eq|].
    destruct (s_ret s =? 0)%Z eqn:B; [left; now apply Z.eqb_eq|discriminate]. }
  destruct (is_sorted target).
  - set (l := sort_descend ge (firstn q (s_evals s))) in *.
    assert (PL : Permutation l (combine (firstn q (s_evals s)) (seq 0 q))).
    { unfold l. pose proof (sort_perm (firstn q (s_evals s))) as Q. rewrite LE in Q. exact Q. }
    assert (LL : length l = q).
    { rewrite (Permutation_length PL), combine_length, seq_length, LE. lia. }
    assert (IN : forall i, In i (map snd l) -> i < length ve).
    { intros i I. apply in_map_iff in I. destruct I as ([e j] & <- & I). cbn [snd].
      apply (Permutation_in _ PL) in I. apply in_combine_r in I. apply in_seq in I. lia. }
    assert (exists xs, pick (map snd l) ve = Ok xs /\ length xs = q /\
              Permutation (combine (map fst l) xs) (combine (firstn q (s_evals s)) (firstn q (s_vecs s)))) as (xs & PK & LX & PX).
    { destruct ve as [|d ve'].
      - cbn [length] in LQ. destruct l as [|p l0].
        + exists []. split; [reflexivity|]. split; [cbn in LL; exact LL|].
          assert (q = 0) as -> by lia. cbn. constructor.
        + cbn [length] in LL. lia.
      - eexists. split; [apply (pick_spec _ d); exact IN|]. split; [rewrite !map_length; exact LL|].
        rewrite combine_map_both. rewrite (Permutation_map _ PL).
        pose proof (combine_nth_seq d (firstn q (s_evals s)) (d :: ve') 0) as Q.
        rewrite LE in Q. rewrite Q by lia. cbn [skipn]. rewrite FQ. reflexivity. }
    rewrite PK in H. cbn [rbind] in H. injection H as H1 H2 H3 H4. subst X D R w.
    split; [exact RET|]. split; [apply Z.eqb_eq|].
    split; [rewrite map_length; exact LL|]. split; [reflexivity|].
    split; [rewrite <- LX at 1; rewrite firstn_all; exact PX|].
    split; [intros _; split; [apply sort_desc|exact LX]|discriminate].
  - cbn [rbind] in H. injection H as H1 H2 H3 H4. subst X D R w.
    split; [exact RET|]. split; [apply Z.eqb_eq|]. split; [exact LE|]. split; [reflexivity|].
    split; [rewrite FQ; reflexivity|]. split; [discriminate|]. intros _. split; [reflexivity|exact FQ].
Qed.

(** *** C68_raised: primme_eigs returns exactly when the solver succeeded or stopped at a limit; every
    other code is raised. *)
Theorem C68_raised : forall own unc target s, left_by_solver s ->
  match result own unc target s with
  | Ok _ => (s_ret s = 0 \/ s_ret s = -3)%Z
  | Err => (s_ret s <> 0 /\ s_ret s <> -3)%Z
  | Bad => False
  end.
Proof.
  intros own unc target s (L1 & L2 & L3). unfold eigs_result, mex_return, finish.
  pose proof (numRet_le (s_norms s)) as LN.
  set (ve0 := if own then s_vecs s else firstn (numRet nonneg (s_norms s)) (s_vecs s)).
  assert (LV : numRet nonneg (s_norms s) <= length ve0).
  { unfold ve0. destruct own; [lia|]. rewrite firstn_length. lia. }
  assert (exists ev no ve, length ev <= length ve /\
     (if (s_ret s =? -3)%Z && negb unc then
           rbind (upto (s_init s) (firstn (numRet nonneg (s_norms s)) (s_evals s))) (fun ev =>
           rbind (upto (s_init s) (firstn (numRet nonneg (s_norms s)) (s_norms s))) (fun no =>
           rbind (upto (s_init s) ve0) (fun ve => Ok (ev, no, ve))))
      else Ok (firstn (numRet nonneg (s_norms s)) (s_evals s), firstn (numRet nonneg (s_norms s)) (s_norms s), ve0))
     = Ok (ev, no, ve)) as (ev & no & ve & LE & ->).
  { destruct ((s_ret s =? -3)%Z && negb unc).
    - unfold upto. rewrite !(proj2 (Nat.leb_le _ _)) by (rewrite ?firstn_length; lia). cbn [rbind].
      do 3 eexists. split; [|reflexivity]. rewrite !firstn_length. lia.
    - do 3 eexists. split; [|reflexivity]. rewrite firstn_length. lia. }
  cbn [rbind]. destruct (s_ret s =? -3)%Z eqn:A; cbn [negb andb].
  - apply Z.eqb_eq in A.
    destruct (is_sorted target); [|cbn; auto].
    destruct (pick (map snd (sort_descend ge ev)) ve) eqn:P; cbn [rbind]; auto; exfalso.
    + destruct ve as [|d ve']; [destruct ev; [discriminate|cbn in LE; lia]|].
      rewrite (pick_spec _ d) in P; [discriminate|]. intros i I. apply in_map_iff in I. destruct I as ([e j] & <- & I).
      apply (Permutation_in _ (sort_perm ev)) in I. apply in_combine_r in I. apply in_seq in I. cbn [snd]. lia.
    + destruct ve as [|d ve']; [destruct ev; [discriminate|cbn in LE; lia]|].
      rewrite (pick_spec _ d) in P; [discriminate|]. intros i I. apply in_map_iff in I. destruct I as ([e j] & <- & I).
      apply (Permutation_in _ (sort_perm ev)) in I. apply in_combine_r in I. apply in_seq in I. cbn [snd]. lia.
  - apply Z.eqb_neq in A. destruct (s_ret s =? 0)%Z eqn:B; cbn [negb].
    + apply Z.eqb_eq in B. destruct (is_sorted target); [|cbn; auto].
      destruct (pick (map snd (sort_descend ge ev)) ve) eqn:P; cbn [rbind]; auto; exfalso.
      * destruct ve as [|d ve']; [destruct ev; [discriminate|cbn in LE; lia]|].
        rewrite (pick_spec _ d) in P; [discriminate|]. intros i I. apply in_map_iff in I. destruct I as ([e j] & <- & I).
        apply (Permutation_in _ (sort_perm ev)) in I. apply in_combine_r in I. apply in_seq in I. cbn [snd]. lia.
      * destruct ve as [|d ve']; [destruct ev; [discriminate|cbn in LE; lia]|].
        rewrite (pick_spec _ d) in P; [discriminate|]. intros i I. apply in_map_iff in I. destruct I as ([e j] & <- & I).
        apply (Permutation_in _ (sort_perm ev)) in I. apply in_combine_r in I. apply in_seq in I. cbn [snd]. lia.
    + apply Z.eqb_neq in B. auto.
Qed.

(** *** C68_norms_partial: for the targets LA, SA and LM each norm is next to its value. *)
Theorem C68_norms_partial : forall own unc target s X D R w, left_by_solver s -> is_sorted target = false ->
  result own unc target s = Ok (X, D, R, w) ->
  combine D R = combine (firstn (wanted unc s) (s_evals s)) (firstn (wanted unc s) (s_norms s)).
Proof.
  intros own unc target s X D R w L S H.
  destruct (C68_returned own unc target s X D R w L H) as (_ & _ & _ & -> & _ & _ & Q).
  destruct (Q S) as [-> _]. reflexivity.
Qed.

(** *** C68_columns_partial: there are as many vectors as values when the target is an inner one,
    when the run is complex or has constraints, and when a limit was met. *)
Theorem C68_columns_partial : forall own unc target s X D R w, left_by_solver s ->
  result own unc target s = Ok (X, D, R, w) ->
  is_sorted target = true \/ own = false \/ (s_ret s = -3)%Z /\ unc = false ->
  length X = length D.
Proof.
  intros own unc target s X D R w L H C.
  destruct (C68_returned own unc target s X D R w L H) as (_ & _ & LD & _ & _ & QS & _).
  destruct (is_sorted target) eqn:S; [rewrite LD; apply QS; reflexivity|].
  destruct L as (L1 & L2 & L3). pose proof (numRet_le (s_norms s)) as LN.
  unfold eigs_result, mex_return, finish in H. rewrite S in H.
  rewrite LD. clear LD QS. unfold wanted.
  destruct ((s_ret s =? -3)%Z && negb unc) eqn:T.
  - unfold upto in H.
    destruct (s_init s <=? length (firstn (numRet nonneg (s_norms s)) (s_evals s))); [|discriminate].
    cbn [rbind] in H.
    destruct (s_init s <=? length (firstn (numRet nonneg (s_norms s)) (s_norms s))); [|discriminate].
    cbn [rbind] in H.
    match type of H with context [if ?b then _ else _] => destruct b eqn:B end; [|discriminate].
    cbn [rbind] in H. apply Nat.leb_le in B.
    match type of H with context [if ?b then _ else _] => destruct b end; [discriminate|].
    cbn [rbind] in H. injection H as H1 H2 H3 H4. subst X. rewrite firstn_length. lia.
  - destruct C as [C|[C|[C1 C2]]]; [discriminate| |].
    + subst own. cbn [rbind] in H.
      match type of H with context [if ?b then _ else _] => destruct b end; [discriminate|].
      cbn [rbind] in H. injection H as H1 H2 H3 H4. subst X. rewrite firstn_length. lia.
    + rewrite C1, C2 in T. discriminate.
Qed.
(** *** C68_counted: when no limit was met, the pairs returned are those up to the first one without a
    residual norm. *)
Theorem C68_counted : forall own unc target s X D R w, left_by_solver s ->
  result own unc target s = Ok (X, D, R, w) -> s_ret s = 0%Z ->
  Forall (fun r => nonneg r = true) R /\
  forall r, nth_error (s_norms s) (length D) = Some r -> nonneg r = false.
Proof.
  intros own unc target s X D R w L H Z0.
  destruct (C68_returned own unc target s X D R w L H) as (_ & _ & LD & -> & _).
  rewrite LD. unfold wanted. rewrite Z0. cbn [Z.eqb andb].
  clear. induction (s_norms s) as [|a l IH]; [cbn; split; [constructor|intros r C; discriminate]|].
  cbn [numRet]. destruct (nonneg a) eqn:A.
  - cbn [firstn nth_error]. destruct IH as [I1 I2]. split; [constructor; assumption|exact I2].
  - cbn [firstn nth_error]. split; [constructor|]. intros r C. injection C as <-. exact A.
Qed.
End Results.

Definition run1 : solved (E := Z) (V := string) :=
  Solved 0 [3; 5]%Z [1; 2]%Z ["x3"; "x5"]%string 2.
Definition run2 : solved (E := Z) (V := string) :=
  Solved 0 [5]%Z [1]%Z ["x5"; "guess"]%string 1.
Definition run3 : solved (E := Z) (V := string) :=
  Solved (-3) [3; 5; 4]%Z [1; 2; -1]%Z ["x3"; "x5"; "y"]%string 1.

(** *** C68_norms_refuted: for inner targets the norms stay in the order of the solver while values
    and vectors are sorted, so that they are next to other values. *)
Theorem C68_norms_refuted : exists X D R w,
  left_by_solver (fun z => 0 <=? z)%Z run1 /\
  eigs_result Z.geb (fun z => 0 <=? z)%Z false false "primme_closest_abs" run1 = Ok (X, D, R, w) /\
  In (5, 1)%Z (combine D R) /\ ~ In (5, 1)%Z (combine (s_evals run1) (s_norms run1)).
Proof.
  do 4 eexists. split; [unfold left_by_solver; cbn; lia|]. split; [vm_compute; reflexivity|].
  split; [left; reflexivity|]. intros [H|[H|[]]]; discriminate.
Qed.

(** *** C68_columns_refuted: in a real run without constraints and with more guesses than values
    asked for, the vectors returned are more than the values. *)
Theorem C68_columns_refuted : exists X D R w,
  left_by_solver (fun z => 0 <=? z)%Z run2 /\
  eigs_result Z.geb (fun z => 0 <=? z)%Z true false "primme_largest" run2 = Ok (X, D, R, w) /\
  length D = 1 /\ length X = 2.
Proof. do 4 eexists. split; [unfold left_by_solver; cbn; lia|]. vm_compute. auto. Qed.

Example C68_result_case :
  eigs_result Z.geb (fun z => 0 <=? z)%Z true false "primme_closest_abs" run1
    = Ok (["x5"; "x3"]%string, [5; 3]%Z, [1; 2]%Z, false) /\
  eigs_result Z.geb (fun z => 0 <=? z)%Z true false "primme_smallest" run3 = Ok (["x3"]%string, [3]%Z, [1]%Z, true) /\
  left_by_solver (fun z => 0 <=? z)%Z run3.
Proof. split; [vm_compute; reflexivity|]. split; [vm_compute; reflexivity|]. unfold left_by_solver. cbn. lia. Qed.

(** A call: a matrix of order two, two values, closest to 7, no options, a method. *)
Definition m2 : @matrix Z := Matrix 2 2 false (fun i j => Z.of_nat (2 * i + j)).
Definition call1 : call (@arg Z) :=
  Call (AMat m2) None None [AScalar 2%Z 2; AScalar 7%Z 7; AEmpty; AStr "JDQMR"].
Example C68_call_case : documented 0%Z (fun _ _ => None) (fun _ _ => None) call1 /\
  exists p, parse 0%Z Z.add Z.mul (fun _ _ => None) (fun _ _ => None) (written call1) = Ok p /\
    p_n p = 2 /\ p_k p = 2 /\ p_target p = "primme_closest_abs"%string /\ p_method p = "PRIMME_JDQMR"%string /\
    p_shifts p = Some (full 1 1 false [7%Z]).
Proof.
  split.
  - unfold documented, call1. cbn [c_A c_B c_dim c_rest is_fun orb].
    split; [exact I|]. split; [discriminate|]. split; [reflexivity|].
    split; [intros x E; injection E as E; subst; eauto|].
    split; [intros x E; injection E as E; subst; left; eauto|].
    split; [intros x E; injection E as E; subst; auto|].
    split; [intros x E; injection E as E; subst; right; eauto|].
    split; [discriminate|]. split; [discriminate|]. cbn. lia.
  - eexists. split; [reflexivity|]. repeat split.
Qed.

(** A product of a block of two vectors with a gap between them. *)
Example C68_product_case :
  matvec false (times 0%Z Z.add Z.mul m2) 2 2 [1; 0; 9; 0; 1; 9]%Z 3 [8; 8; 8; 8; 8; 8; 8]%Z 4
    = Ok [0; 2; 8; 8; 1; 3; 8]%Z.
Proof. reflexivity. Qed.

Example C68_guess_case :
  start_vectors false 2 1 (Some (full 2 1 false [1; 2]%Z)) (Some (full 2 2 false [3; 4; 5; 6]%Z)) 0%Z
    = Ok [1; 2; 3; 4; 5; 6]%Z.
Proof. reflexivity. Qed.

(** The same with the left division by [m2] and then with [] as preconditioner. *)
Definition ldiv (m : @matrix Z) (x : @arr Z) : option (@arr Z) := Some x.
Example C68_prec_case : forall p, p = AMat m2 \/ p = AEmpty ->
  documented 0%Z ldiv (fun _ _ => None) (Call (AMat m2) None None [AScalar 2%Z 2; AStr "LA"; AEmpty; AEmpty; p]).
Proof.
  intros p P. unfold documented. cbn [c_A c_B c_dim c_rest is_fun orb].
  split; [exact I|]. split; [discriminate|]. split; [reflexivity|].
  split; [intros x E; injection E as E; subst; eauto|].
  split; [intros x E; injection E as E; subst; right; eexists; split; [reflexivity|discriminate]|].
  split; [intros x E; injection E as E; subst; auto|].
  split; [intros x E; injection E as E; subst; auto|].
  split; [intros x E; injection E as E; subst; destruct P as [-> | ->]; discriminate|].
  split; [discriminate|]. cbn. lia.
Qed.
