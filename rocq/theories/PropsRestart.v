(** Properties of a restart: C13 (nothing lost, nothing doubled), C14 (memory
    limits), C33 (the pairing of old and new coefficient vectors). *)
From Verif Require Import Base Values SelectModel RestartModel ScatterProofs RestartProofs
  RestartProofs2 RestartProofs3.
From Coq Require Import List Arith ZArith QArith Lia Bool Permutation Sorted.
Import ListNotations.
Open Scope nat_scope.

(* ------------------------------------------------------------------ *)
(** * Specification vocabulary *)

(** pair [x] is marked as converged *)
Definition marked (flags : list flag) (x : nat) : Prop :=
  exists f, nth_error flags x = Some f /\ f <> UNCONVERGED.

(** [h] undoes [p] on 0..n-1 *)
Definition undoes (h p : list nat) (n : nat) : Prop :=
  forall i k, i < n -> k < n -> (nth_error p i = Some k <-> nth_error h k = Some i).

Lemma flagged_marked : forall flags x,
  (exists f, nth_error flags x = Some f /\ flagged f = true) <-> marked flags x.
Proof.
  intros flags x. split; intros (f & H1 & H2); exists f; split; auto.
  - intros ->. discriminate.
  - destruct f; auto; congruence.
Qed.

Lemma seq_sorted : forall n s, StronglySorted lt (seq s n).
Proof.
  induction n as [|n IH]; intro s; cbn; constructor; auto.
  apply Forall_forall. intros z Hz. apply in_seq in Hz. lia.
Qed.

(* ------------------------------------------------------------------ *)
(** * C14: sizes *)

(** What check_input (primme_c.c 468-489) and the loops of main_iter grant. *)
Record admissible (a : rst_in) : Prop := {
  ad_basis : (0 <= r_basisSize a <= r_maxBasisSize a)%Z;
  ad_block : (1 <= r_maxBlockSize a)%Z;
  ad_min : (0 <= r_minRestartSize a)%Z;
  ad_prev : (0 <= r_maxPrevRetain a)%Z;
  ad_guess : (0 <= r_numGuesses a)%Z;
  ad_conv : (0 <= r_numLocked a <= r_numConverged a)%Z;
  ad_conv2 : (r_numConverged a - r_numLocked a <= r_basisSize a)%Z;
  ad_sum : (r_maxBasisSize a < r_n a ->
            r_minRestartSize a + r_maxPrevRetain a < r_maxBasisSize a)%Z;
  ad_const : (0 <= r_numOrthoConst a)%Z }.

Lemma retain_bound : forall keeps r limit index bs,
  (r <= retain keeps r limit index bs)%Z /\
  (r <= limit -> retain keeps r limit index bs <= limit)%Z /\
  (index + r <= bs -> index + retain keeps r limit index bs <= bs)%Z /\
  (bs < index + r -> retain keeps r limit index bs = r)%Z.
Proof.
  induction keeps as [|b t IH]; intros r limit index bs; cbn [retain]; [lia|].
  destruct (Z.ltb_spec r limit), (Z.ltb_spec (index + r) bs); cbn [andb]; try lia.
  destruct b; [specialize (IH (r + 1)%Z limit index bs)|specialize (IH r limit index bs)]; lia.
Qed.

Section C14.
Variable a : rst_in.
Hypothesis H : admissible a.
Variable keeps : list bool.

(** the sizes decided by restart(): restartSize, retained previous vectors *)
Let rs := fst (restart_sizes a).
Let npr := retain keeps 0 (snd (restart_sizes a)) (prev_index a rs) (r_basisSize a).

Ltac start :=
  destruct H; unfold npr, rs, restart_sizes, prev_index, room_locked, room_guesses, prev_limit,
    first_sizes, whole_space, not_full in *; cbn [fst snd] in *.

Lemma sizes_nonneg : (0 <= rs)%Z.
Proof.
  start. destruct (r_locking a); cbn [negb andb] in *; destruct (_ <=? _)%Z eqn:E1;
    try (destruct (r_basisSize a <=? r_maxBasisSize a - r_maxBlockSize a)%Z eqn:E2); cbn [fst snd]; lia.
Qed.

(** Previous vectors: never more than asked for. *)
Theorem C14_retained : (0 <= npr <= r_maxPrevRetain a)%Z.
Proof.
  unfold npr. pose proof (retain_bound keeps 0 (snd (restart_sizes a)) (prev_index a rs) (r_basisSize a)) as B.
  assert (0 <= snd (restart_sizes a) <= r_maxPrevRetain a)%Z; [|lia]. clear B.
  unfold restart_sizes, prev_limit. cbn [snd].
  assert (0 <= snd (first_sizes a) <= r_maxPrevRetain a)%Z.
  { unfold first_sizes. destruct H. destruct (whole_space a); [cbn [snd]; lia|].
    destruct (not_full a); cbn [snd]; lia. }
  generalize dependent (snd (first_sizes a)). intros. lia.
Qed.

(** With locking, what is kept, what is retained and what is to be locked fit
    in the basis together; without, what is kept and retained does. *)
Theorem C14_fits :
  (rs + npr + (if r_locking a then r_numConverged a - r_numLocked a else 0) <= r_basisSize a)%Z.
Proof.
  pose proof (retain_bound keeps 0 (snd (restart_sizes a)) (prev_index a rs) (r_basisSize a)) as B.
  fold npr in B.
  assert (prev_index a rs <= r_basisSize a)%Z as HI.
  { clear B. start. destruct (r_locking a); cbn [negb andb] in *; destruct (_ <=? _)%Z eqn:E1;
    try (destruct (r_basisSize a <=? r_maxBasisSize a - r_maxBlockSize a)%Z eqn:E2); cbn [fst snd]; lia. }
  assert (prev_index a rs = rs + (if r_locking a then r_numConverged a - r_numLocked a else 0))%Z as HE.
  { unfold prev_index. destruct (r_locking a); lia. }
  destruct B as (_ & _ & B & _). specialize (B ltac:(lia)). lia.
Qed.

(** The basis never grows at a restart, and unless it spans the whole space (with
    locking: unless maxBasisSize reaches the dimension) a place for a new vector is left, as long as every pair that was to be locked
    passes its test (or the basis was not full). *)
Theorem C14_room : forall failed : Z,
  (0 <= failed <= (if r_locking a then r_numConverged a - r_numLocked a else 0))%Z ->
  (rs + npr + failed <= r_basisSize a)%Z /\
  ((r_locking a = true /\ r_maxBasisSize a < r_n a)%Z \/ (r_basisSize a + r_numLocked a + r_numOrthoConst a < r_n a)%Z ->
   failed = 0%Z \/ not_full a = true ->
   (rs + npr + failed <= r_maxBasisSize a - 1)%Z).
Proof.
  intros failed Hf. pose proof C14_fits as F. pose proof C14_retained as R. split; [lia|].
  intros Hn Hc.
  destruct (Z.lt_ge_cases (r_basisSize a) (r_maxBasisSize a)) as [L|L]; [destruct H; lia|].
  assert (HB : r_basisSize a = r_maxBasisSize a) by (destruct H; lia).
  destruct Hc as [->|Hc].
  2:{ unfold not_full in Hc. apply Z.leb_le in Hc. destruct H; lia. }
  assert (rs <= r_minRestartSize a)%Z.
  { clear F R. start. rewrite HB in *.
    destruct (Z.leb_spec (r_maxBasisSize a) (r_maxBasisSize a - r_maxBlockSize a)); [lia|].
    destruct (r_locking a); cbn [negb andb].
    { cbn [fst]. lia. }
    destruct Hn as [[Hn _]|Hn]; [discriminate|].
    destruct (Z.leb_spec (r_n a) (r_maxBasisSize a + r_numLocked a + r_numOrthoConst a)); [lia|].
    cbn [fst]. lia. }
  destruct H. lia.
Qed.

(** When vectors of the previous step are retained, the restarted basis, the
    converged pairs and the constraints do not exceed the problem dimension, and
    a place for a new vector is left. *)
Theorem C14_dimension : (0 < npr)%Z ->
  (rs + npr + r_numConverged a + r_numOrthoConst a <= r_n a)%Z /\
  (rs + npr <= r_maxBasisSize a - 1)%Z.
Proof.
  intro Hp. pose proof (retain_bound keeps 0 (snd (restart_sizes a)) (prev_index a rs) (r_basisSize a)) as B.
  fold npr in B.
  assert (snd (restart_sizes a) <= Z.max 0 (Z.min (r_maxBasisSize a - rs - 1)
            (r_n a - rs - r_numConverged a - r_numOrthoConst a)))%Z as HI.
  { unfold rs, restart_sizes, prev_limit. cbn [fst snd]. lia. }
  assert (0 <= snd (restart_sizes a))%Z by (unfold restart_sizes, prev_limit; cbn [snd]; lia).
  lia.
Qed.
End C14.
Print Assumptions C14_retained.
Print Assumptions C14_fits.
Print Assumptions C14_room.
Print Assumptions C14_dimension.

(** A full basis of ten, restarted with four and one previous vector. *)
Definition ex_full : rst_in :=
  {| r_locking := true; r_basisSize := 10; r_maxBasisSize := 10; r_maxBlockSize := 1;
     r_minRestartSize := 4; r_maxPrevRetain := 1; r_n := 100; r_numOrthoConst := 0;
     r_numEvals := 6; r_numGuesses := 0; r_numConverged := 5; r_numLocked := 0 |}.
Example C14_ex : admissible ex_full /\ restart_sizes ex_full = (4, 1)%Z /\ not_full ex_full = false.
Proof. split; [constructor; cbn; lia|]. split; reflexivity. Qed.

(** If the pairs to be locked fail their test they return to the basis, which
    may then be as full as before the restart: no place for a new vector. *)
Theorem C14_room_failed_refuted : exists a keeps failed,
  admissible a /\ (r_basisSize a + r_numLocked a + r_numOrthoConst a < r_n a)%Z /\
  (0 <= failed <= r_numConverged a - r_numLocked a)%Z /\
  let rs := fst (restart_sizes a) in
  (rs + retain keeps 0 (snd (restart_sizes a)) (prev_index a rs) (r_basisSize a) + failed
   = r_maxBasisSize a)%Z.
Proof.
  exists ex_full, [true], 5%Z. split; [apply C14_ex|]. cbn. lia.
Qed.
Print Assumptions C14_room_failed_refuted.

(** Initial guesses added after the restart respect both limits. *)
Theorem C14_guesses : forall minRestartSize numConverged nextGuess numOrthoConst numGuesses
    basisSize maxBasisSize numLocked n,
  (0 <= numGuesses)%Z -> (basisSize <= maxBasisSize)%Z -> (basisSize + numOrthoConst + numLocked <= n)%Z ->
  let k := new_guesses minRestartSize numConverged nextGuess numOrthoConst numGuesses
             basisSize maxBasisSize numLocked n in
  (0 <= k <= numGuesses)%Z /\ (basisSize + k <= maxBasisSize)%Z /\
  (basisSize + k + numOrthoConst + numLocked <= n)%Z /\
  (nextGuess + k - numOrthoConst <= Z.max (nextGuess - numOrthoConst) (minRestartSize + numConverged))%Z.
Proof. intros. unfold k, new_guesses. cbn. lia. Qed.
Print Assumptions C14_guesses.
Example C14_guesses_ex : new_guesses 4 1 4 0 3 3 10 1 100 = 1%Z.
Proof. reflexivity. Qed.

(* ------------------------------------------------------------------ *)
(** * C13 without locking *)

Section Soft.
Variables (flags : list flag) (moved : nat -> bool) (numEvals basisSize : nat).
Hypothesis Hlen : basisSize <= length flags.
Hypothesis Hlen2 : numEvals <= length flags.
(** flags past the basis, if any are looked at, are not marked *)
Hypothesis Htail : forall p, basisSize <= p < numEvals -> nth_error flags p = Some UNCONVERGED.
Variables (rp h : list nat).
Hypothesis Hrp : basisSize <= length rp.
Hypothesis Hh : basisSize <= length h.

Let m := Nat.min numEvals basisSize.

Lemma soft_all : exists flags' nc W0 W1 rp' h',
  soft_count flags moved numEvals 0 0 = Some (flags', nc) /\
  soft_perm flags' nc basisSize 0 0 0 rp = Some rp' /\
  invert_loop rp' basisSize 0 h = Some h' /\
  rp' = W0 ++ W1 ++ seq m (basisSize - m) ++ skipn basisSize rp /\
  length W0 = nc /\ is_perm (W0 ++ W1) m /\ is_perm (firstn basisSize rp') basisSize /\
  firstn basisSize rp' = W0 ++ W1 ++ seq m (basisSize - m) /\
  StronglySorted lt W0 /\ StronglySorted lt W1 /\
  (forall x, In x W0 -> x < m /\ marked flags' x) /\
  (forall i k, i < basisSize -> nth_error rp' i = Some k -> nth_error h' k = Some i) /\
  (forall i k, k < basisSize -> nth_error h' k = Some i -> nth_error rp' i = Some k) /\
  is_perm (firstn basisSize h') basisSize /\ length h' = length h /\
  nc = nflag (firstn numEvals flags') /\ length flags' = length flags /\
  (forall x, x < basisSize -> In x W1 \/ (m <= x) -> x < numEvals -> ~ marked flags' x) /\
  (forall p f, p < numEvals -> nth_error flags p = Some f ->
     nth_error flags' p = Some (if flagged f && moved p then UNCONVERGED else f)).
Proof.
  destruct (soft_count_spec moved numEvals flags 0 0) as (fl & nc & E1 & L1 & N1 & K1 & V1); [lia|].
  cbn [skipn] in N1. rewrite Nat.add_0_l in N1.
  assert (Nm : nc = nflag (firstn m fl)).
  { unfold m. destruct (Nat.le_ge_cases numEvals basisSize) as [C|C].
    - now rewrite Nat.min_l by lia.
    - rewrite Nat.min_r by lia. rewrite N1.
      replace (firstn numEvals fl) with (firstn basisSize fl ++ firstn (numEvals - basisSize) (skipn basisSize fl)).
      + rewrite nflag_app, (nflag_zero (firstn _ (skipn _ _))); [lia|].
        intros f Hf. destruct (In_nth_error _ _ Hf) as [j Hj].
        assert (Hj' : j < numEvals - basisSize).
        { assert (j < length (firstn (numEvals - basisSize) (skipn basisSize fl))) by (apply nth_error_Some; congruence).
          rewrite firstn_length in H. lia. }
        rewrite nth_error_firstn' in Hj by lia. rewrite nth_error_skipn' in Hj.
        rewrite (V1 (basisSize + j) UNCONVERGED) in Hj; [|lia|apply Htail; lia].
        cbn in Hj. congruence.
      + rewrite <- (firstn_skipn basisSize fl) at 3.
        rewrite firstn_app, firstn_length, Nat.min_l by lia.
        rewrite firstn_firstn, Nat.min_r by lia. reflexivity. }
  destruct (soft_perm_shape fl nc m basisSize rp) as (S1 & S2 & S3 & S4 & S5 & S6); try lia.
  set (W0 := where_is 0 (soft_cls (firstn m fl) nc 0) 0) in *.
  set (W1 := where_is 1 (soft_cls (firstn m fl) nc 0) 0) in *.
  set (rp' := W0 ++ W1 ++ seq m (basisSize - m) ++ skipn basisSize rp) in *.
  assert (LW : length W0 + length W1 = m).
  { rewrite <- app_length. now apply is_perm_length. }
  assert (Hm : m <= basisSize) by (unfold m; lia).
  assert (F : firstn basisSize rp' = W0 ++ W1 ++ seq m (basisSize - m)).
  { unfold rp'. rewrite !app_assoc. rewrite firstn_app.
    assert (L : length ((W0 ++ W1) ++ seq m (basisSize - m)) = basisSize)
      by (rewrite !app_length, seq_length; lia).
    rewrite L, Nat.sub_diag. cbn [firstn]. rewrite app_nil_r. apply firstn_all2. lia. }
  assert (Pb : is_perm (firstn basisSize rp') basisSize).
  { rewrite F, app_assoc. unfold is_perm in *. rewrite S3.
    replace basisSize with (m + (basisSize - m)) at 2 by lia. now rewrite seq_app. }
  destruct (invert_spec rp' basisSize h) as (h' & I1 & I2 & I3 & I4 & I5); auto.
  { unfold rp'. rewrite !app_length, seq_length, skipn_length. lia. }
  exists fl, nc, W0, W1, rp', h'.
  split; [exact E1|]. split; [exact S1|]. split; [exact I1|]. split; [reflexivity|].
  split; [exact S2|]. split; [exact S3|]. split; [exact Pb|]. split; [exact F|].
  split; [exact S4|]. split; [exact S5|].
  split; [intros x Hx; destruct (S6 x Hx) as [A B]; split; [exact A|now apply flagged_marked]|].
  split; [exact I4|]. split; [exact I5|]. split; [exact I3|]. split; [exact I2|]. split; [exact N1|].
  split; [exact L1|]. split.
  - intros x Hx Hc Hne Hmk. apply flagged_marked in Hmk. destruct Hmk as (f & Hf & Hff).
    destruct Hc as [Hc|Hc]; [|unfold m in Hc; lia].
    (* every flagged pair among the first m is in W0 *)
    assert (Hxm : x < m) by (unfold m; lia).
    assert (Hmx : forall fl' m' k y, k + nflag (firstn m' fl') <= nc -> y < m' ->
       nth_error fl' y = Some f -> nth_error (soft_cls (firstn m' fl') nc k) y = Some 0).
    { clear - Hff. induction fl' as [|g t IH]; intros m' k y Hk Hy Hg; [destruct y; discriminate|].
      destruct m' as [|m']; [lia|]. cbn [firstn] in *. rewrite nflag_cons in Hk.
      cbn [soft_cls]. destruct y as [|y].
      - injection Hg as ->. unfold flagged in Hff. destruct (is_unconverged f); [discriminate|].
        destruct (Nat.leb_spec nc k); [lia|]. reflexivity.
      - cbn in Hg. destruct (Nat.leb_spec nc k); cbn [orb nth_error].
        + apply IH; auto; lia.
        + destruct (is_unconverged g); cbn [nth_error]; apply IH; auto; lia. }
    assert (Z0 : nth_error (soft_cls (firstn m fl) nc 0) x = Some 0) by (apply Hmx; auto; lia).
    unfold W1 in Hc. apply where_is_in in Hc. rewrite Nat.sub_0_r in Hc. destruct Hc as [_ Hc]. congruence.
  - intros p f Hp Hf. apply V1; [lia|exact Hf].
Qed.

(** The reordering is a permutation of the basis, it brings the marked pairs
    among the first numEvals, and only them, to the front without changing
    their order nor that of the others, and hVecsPerm undoes it. *)
Theorem C13_soft_locking : exists flags' nc rp' h',
  soft_count flags moved numEvals 0 0 = Some (flags', nc) /\
  soft_perm flags' nc basisSize 0 0 0 rp = Some rp' /\
  invert_loop rp' basisSize 0 h = Some h' /\
  nc <= numEvals /\ nc <= basisSize /\
  is_perm (firstn basisSize rp') basisSize /\
  is_perm (firstn basisSize h') basisSize /\ undoes h' rp' basisSize /\
  (forall i x, i < nc -> nth_error rp' i = Some x -> x < numEvals /\ marked flags' x) /\
  (forall i x, nc <= i < basisSize -> nth_error rp' i = Some x -> x < numEvals -> ~ marked flags' x) /\
  (forall i j x y, i < j -> j < nc \/ nc <= i -> j < basisSize ->
     nth_error rp' i = Some x -> nth_error rp' j = Some y -> x < y) /\
  (forall p f, p < numEvals -> nth_error flags p = Some f ->
     nth_error flags' p = Some (if flagged f && moved p then UNCONVERGED else f)).
Proof.
  destruct soft_all as (fl & nc & W0 & W1 & rp' & h' & E1 & E2 & E3 & R & L0 & P & Pb & F & S0 & S1 & M & I4 & I5 & I3 & Lh & N1 & L1 & NM & V).
  exists fl, nc, rp', h'.
  assert (LW : length W0 + length W1 = m) by (rewrite <- app_length; now apply is_perm_length).
  assert (G : forall i, i < basisSize -> nth_error rp' i = nth_error (W0 ++ W1 ++ seq m (basisSize - m)) i).
  { intros i Hi. rewrite <- F. symmetry. now apply nth_error_firstn'. }
  split; [exact E1|]. split; [exact E2|]. split; [exact E3|].
  split; [unfold m in LW; lia|]. split; [unfold m in LW; lia|]. split; [exact Pb|]. split; [exact I3|].
  split; [intros i k Hi Hk; split; [apply I4; auto|apply I5; auto]|].
  split; [|split; [|split; [|exact V]]].
  - intros i x Hi Hx. rewrite G, nth_error_app1 in Hx by (unfold m in *; lia). apply nth_error_In in Hx.
    destruct (M x Hx) as [A B]. split; [unfold m in A; lia|exact B].
  - intros i x Hi Hx. apply NM.
    + apply (is_perm_in _ _ x Pb). apply (nth_error_In _ i). rewrite nth_error_firstn' by lia. exact Hx.
    + rewrite G, nth_error_app2 in Hx by lia. apply nth_error_In in Hx. apply in_app_or in Hx.
      destruct Hx as [Hx|Hx]; [now left|right; apply in_seq in Hx; lia].
  - intros i j x y Hij Hc Hj Hx Hy. rewrite G in Hx, Hy by lia. destruct Hc as [Hc|Hc].
    + rewrite nth_error_app1 in Hx, Hy by lia. exact (sorted_nth_lt _ S0 i j x y Hij Hx Hy).
    + rewrite nth_error_app2 in Hx, Hy by lia.
      assert (SS : StronglySorted lt (W1 ++ seq m (basisSize - m))).
      { assert (B1 : forall z, In z W1 -> z < m).
        { intros z Hz. apply (is_perm_in _ _ z P). apply in_or_app. now right. }
        clear - S1 B1. induction S1 as [|z t St IH Hf]; cbn [app].
        - apply seq_sorted.
        - constructor; [apply IH; intros; apply B1; now right|].
          apply Forall_app. split; [exact Hf|]. apply Forall_forall. intros w Hw. apply in_seq in Hw.
          specialize (B1 z (or_introl eq_refl)). lia. }
      eapply (sorted_nth_lt _ SS (i - length W0) (j - length W0)); eauto; lia.
Qed.

(** The part that is kept is closed: the first [restartSize] columns hold the
    first [restartSize] pairs, and hVecsPerm on them refers to no other column.
    The block then refers to the first unmarked pairs. *)
Theorem C13_soft_kept : forall restartSize ievSize iev flags' nc rp' h',
  soft_count flags moved numEvals 0 0 = Some (flags', nc) ->
  soft_perm flags' nc basisSize 0 0 0 rp = Some rp' ->
  invert_loop rp' basisSize 0 h = Some h' ->
  Nat.min numEvals basisSize <= restartSize <= basisSize ->
  ievSize <= length iev -> nc + ievSize <= restartSize ->
  is_perm (firstn restartSize rp') restartSize /\
  is_perm (firstn restartSize h') restartSize /\
  exists iev', soft_iev (firstn basisSize h') nc restartSize ievSize 0 iev = Some iev' /\
    forall a, a < ievSize -> exists q, nth_error iev' a = Some q /\ q < restartSize /\
      nth_error rp' (nc + a) = Some q.
Proof.
  intros rs sz iev fl nc rp' h' E1 E2 E3 Hrs Hsz Hn.
  destruct soft_all as (fl0 & nc0 & W0 & W1 & rp0 & h0 & E1' & E2' & E3' & R & L0 & P & Pb & F & S0 & S1 & M & I4 & I5 & I3 & Lh & N1 & L1 & NM & V).
  rewrite E1 in E1'. injection E1' as <- <-. rewrite E2 in E2'. injection E2' as <-.
  rewrite E3 in E3'. injection E3' as <-.
  fold m in Hrs.
  assert (LW : length (W0 ++ W1) = m) by now apply is_perm_length.
  assert (Fr : firstn rs rp' = (W0 ++ W1) ++ seq m (rs - m)).
  { replace (firstn rs rp') with (firstn rs (firstn basisSize rp')) by (rewrite firstn_firstn; f_equal; lia).
    rewrite F, app_assoc, firstn_app, LW. rewrite firstn_all2 by lia. f_equal.
    replace (basisSize - m) with ((rs - m) + (basisSize - rs)) by lia.
    rewrite seq_app, firstn_app, seq_length, Nat.sub_diag. cbn [firstn].
    rewrite app_nil_r. apply firstn_all2. rewrite seq_length. lia. }
  assert (Pr : is_perm (firstn rs rp') rs).
  { rewrite Fr. unfold is_perm in *. rewrite P.
    replace rs with (m + (rs - m)) at 2 by lia. now rewrite seq_app. }
  assert (Lrp : length rp' >= basisSize).
  { pose proof (is_perm_length _ _ Pb) as L. rewrite firstn_length in L. lia. }
  destruct (invert_spec rp' rs h) as (h2 & J1 & J2 & J3 & J4 & J5); auto; try lia.
  assert (Hagree : firstn rs h' = firstn rs h2).
  { apply nth_error_ext_len; [rewrite !firstn_length; lia|].
    intros k Hk. rewrite firstn_length in Hk. rewrite !nth_error_firstn' by lia.
    assert (HI : In k (firstn rs rp')) by (apply (is_perm_in _ _ k Pr); lia).
    destruct (In_nth_error _ _ HI) as [i Hi].
    assert (Hi' : i < rs).
    { assert (i < length (firstn rs rp')) by (apply nth_error_Some; congruence).
      rewrite firstn_length in H. lia. }
    rewrite nth_error_firstn' in Hi by lia.
    rewrite (I4 i k), (J4 i k); auto; lia. }
  split; [exact Pr|]. split; [rewrite Hagree; exact J3|].
  assert (Lhb : length (firstn basisSize h') = basisSize) by (rewrite firstn_length; lia).
  destruct (soft_iev_spec (firstn basisSize h') nc rs sz 0 iev) as (iev' & F1 & F2 & F3 & F4 & F5); try lia.
  { intros q q' v Hq Hq'. exact (is_perm_inj _ _ _ _ _ I3 Hq Hq'). }
  exists iev'. split; [exact F1|]. intros a Ha.
  destruct (get_some _ rp' (nc + a)) as [q Hq]; [lia|]. unfold get in Hq.
  assert (Hqr : q < rs).
  { apply (is_perm_in _ _ q Pr). apply (nth_error_In _ (nc + a)). rewrite nth_error_firstn' by lia. exact Hq. }
  exists q. split; [|split; [exact Hqr|exact Hq]].
  apply F4; [lia|exact Hqr|]. rewrite nth_error_firstn' by lia. apply I4; [lia|exact Hq].
Qed.
End Soft.
Print Assumptions C13_soft_locking.
Print Assumptions C13_soft_kept.

(** Six pairs, three wanted, pairs 1, 2 and 4 marked, pair 2 has moved. *)
Example C13_soft_ex :
  let flags := [UNCONVERGED; CONVERGED; PRACTICALLY_CONVERGED; UNCONVERGED; CONVERGED; UNCONVERGED] in
  let z := [9; 9; 9; 9; 9; 9] in
  soft_count flags (Nat.eqb 2) 3 0 0
    = Some ([UNCONVERGED; CONVERGED; UNCONVERGED; UNCONVERGED; CONVERGED; UNCONVERGED], 1) /\
  soft_perm [UNCONVERGED; CONVERGED; UNCONVERGED; UNCONVERGED; CONVERGED; UNCONVERGED] 1 6 0 0 0 z
    = Some [1; 0; 2; 3; 4; 5] /\
  invert_loop [1; 0; 2; 3; 4; 5] 6 0 z = Some [1; 0; 2; 3; 4; 5] /\
  soft_iev [1; 0; 2; 3; 4; 5] 1 4 2 0 [7; 7] = Some [0; 2].
Proof. repeat split. Qed.

(** Without guesses waiting the sizes of restart() meet the hypotheses of
    C13_soft_kept, whatever was retained. *)
Theorem C13_soft_sizes : forall a keeps ievSize nc,
  admissible a -> r_locking a = false -> r_numGuesses a = 0%Z ->
  (r_numEvals a <= r_minRestartSize a)%Z -> (0 <= nc <= Z.min (r_numEvals a) (r_basisSize a))%Z ->
  let rs := fst (restart_sizes a) in
  let restartSize := (rs + retain keeps 0 (snd (restart_sizes a)) (prev_index a rs) (r_basisSize a))%Z in
  (Z.min (r_numEvals a) (r_basisSize a) <= restartSize <= r_basisSize a)%Z /\
  (nc + soft_ievSize ievSize (r_maxBlockSize a) (r_numEvals a) nc (r_maxBasisSize a)
          restartSize (r_basisSize a) (r_minRestartSize a) <= restartSize)%Z /\
  (0 <= soft_ievSize ievSize (r_maxBlockSize a) (r_numEvals a) nc (r_maxBasisSize a)
          restartSize (r_basisSize a) (r_minRestartSize a) <= Z.max 0 (Z.min ievSize (r_maxBlockSize a)))%Z.
Proof.
  intros a keeps ievSize nc H HL HG HE Hnc rs restartSize.
  pose proof (C14_fits a H keeps) as F. pose proof (C14_retained a H keeps) as R. rewrite HL in F.
  fold rs in F, R. 
  assert (Hr : (Z.min (r_basisSize a) (r_minRestartSize a) <= rs)%Z).
  { clear F R restartSize. destruct H. unfold rs, restart_sizes, room_locked, room_guesses, first_sizes. cbn [fst].
    rewrite HL, HG. destruct (whole_space a); [cbn [fst]; lia|]. destruct (not_full a); cbn [fst]; lia. }
  unfold restartSize, soft_ievSize. lia.
Qed.
Print Assumptions C13_soft_sizes.

(** With initial guesses waiting, the room made for them (restart.c 275) lets
    restartSize fall below a marked pair: the kept columns are then not the
    pairs that hVecsPerm says they are. *)
Theorem C13_soft_guesses_refuted : exists a flags rp h rp' h',
  admissible a /\ r_locking a = false /\ (r_numEvals a <= r_minRestartSize a)%Z /\
  length flags = Z.to_nat (r_basisSize a) /\
  r_numConverged a = Z.of_nat (snd (restart_count flags 0 (Z.to_nat (r_numEvals a)) 0 0 smallest)) /\
  soft_count flags (fun _ => false) (Z.to_nat (r_numEvals a)) 0 0 = Some (flags, 1) /\
  soft_perm flags 1 (Z.to_nat (r_basisSize a)) 0 0 0 rp = Some rp' /\
  invert_loop rp' (Z.to_nat (r_basisSize a)) 0 h = Some h' /\
  let rs := Z.to_nat (fst (restart_sizes a)) in
  rs = 1 /\ snd (restart_sizes a) = 0%Z /\ firstn rs rp' = [1] /\ firstn rs h' = [1].
Proof.
  exists {| r_locking := false; r_basisSize := 4; r_maxBasisSize := 4; r_maxBlockSize := 1;
            r_minRestartSize := 2; r_maxPrevRetain := 0; r_n := 100; r_numOrthoConst := 0;
            r_numEvals := 2; r_numGuesses := 1; r_numConverged := 1; r_numLocked := 0 |},
    [UNCONVERGED; CONVERGED; UNCONVERGED; UNCONVERGED], [0; 0; 0; 0], [0; 0; 0; 0],
    [1; 0; 2; 3], [1; 0; 2; 3].
  split; [constructor; cbn; lia|]. repeat split; cbn; lia.
Qed.
Print Assumptions C13_soft_guesses_refuted.

(* ------------------------------------------------------------------ *)
(** * C13 with locking *)

(** The reordering is a permutation made of what is kept, what is to be locked
    and what is dropped; the pairs to be locked are exactly as many as restart()
    counted, marked and eligible; within each part, and from kept to dropped,
    the order is that of the basis. *)
Theorem C13_locking : forall a keeps flags numEvals numLocked t rp,
  admissible a -> r_locking a = true ->
  r_basisSize a = Z.of_nat (length flags) -> r_numEvals a = Z.of_nat numEvals ->
  r_numLocked a = Z.of_nat numLocked -> numLocked <= numEvals ->
  let flags' := fst (restart_count flags 0 numEvals numLocked 0 t) in
  let c := snd (restart_count flags 0 numEvals numLocked 0 t) in
  r_numConverged a = Z.of_nat (numLocked + c) ->
  length flags <= length rp ->
  let rs := fst (restart_sizes a) in
  let npr := retain keeps 0 (snd (restart_sizes a)) (prev_index a rs) (r_basisSize a) in
  let left := Z.to_nat (rs + npr) in
  exists kept packed dropped,
    lock_perm flags' numEvals numLocked t left (Nat.min (numLocked + c) numEvals - numLocked)
      (length flags) 0 0 0 rp = Some (kept ++ packed ++ dropped ++ skipn (length flags) rp, c) /\
    is_perm (kept ++ packed ++ dropped) (length flags) /\
    length kept = left /\ length packed = c /\
    StronglySorted lt kept /\ StronglySorted lt packed /\ StronglySorted lt dropped /\
    (forall x y, In x kept -> In y dropped -> x < y) /\
    (forall x, In x packed -> marked flags' x /\
       (x < numEvals - numLocked \/ t = closest_geq \/ t = closest_leq)).
Proof.
  intros a keeps flags ne nl t rp H HL HB HE HN Hle fl c HC Hr rs npr left.
  destruct (restart_count_npack flags 0 ne nl 0 t Hle) as [Hc Hl]. fold fl c in Hc, Hl. rewrite Nat.add_0_l in Hc.
  destruct (restart_count_bound flags 0 ne nl 0 t Hle ltac:(lia)) as [Hb _]. fold c in Hb.
  pose proof (C14_fits a H keeps) as F. cbv zeta in F. rewrite HL in F. fold rs npr in F.
  pose proof (C14_retained a H keeps) as R. cbv zeta in R. fold rs npr in R.
  pose proof (sizes_nonneg a H keeps) as Z0. cbv zeta in Z0. fold rs in Z0.
  destruct (lock_perm_shape fl ne nl t left c (length flags) rp) as (k & p & d & E & L0 & L1 & P & S0 & S1 & S2 & O & M); auto.
  { unfold left. clear -F R Z0 HC HN HB Hle. clearbody rs npr c. lia. }
  exists k, p, d. replace (Nat.min (nl + c) ne - nl) with c by lia.
  repeat split; auto.
  - apply flagged_marked. now apply M.
  - destruct (M x H0) as [El _]. unfold eligible in El. apply orb_true_iff in El.
    destruct El as [El|El]; [left; now apply Nat.ltb_lt|]. destruct t; try discriminate; auto.
Qed.
Print Assumptions C13_locking.

Example C13_locking_ex :
  let flags := [CONVERGED; UNCONVERGED; SKIP_UNTIL_RESTART; PRACTICALLY_CONVERGED; UNCONVERGED; CONVERGED] in
  restart_count flags 0 4 0 0 smallest =
    ([CONVERGED; UNCONVERGED; UNCONVERGED; PRACTICALLY_CONVERGED; UNCONVERGED; CONVERGED], 2) /\
  lock_perm (fst (restart_count flags 0 4 0 0 smallest)) 4 0 smallest 3 2 6 0 0 0 [9; 9; 9; 9; 9; 9]
    = Some ([1; 2; 4; 0; 3; 5], 2).
Proof. split; reflexivity. Qed.

(** Pairs that fail their test are put first, and the order of both groups is
    kept. *)
Theorem C13_failed : forall fl,
  is_perm (ifailed fl) (length fl) /\
  forall j x, nth_error (ifailed fl) j = Some x ->
    (j < length (failed_first fl 0) <-> nth_error fl x = Some UNCONVERGED).
Proof.
  intro fl. split; [apply ifailed_perm|]. intros j x Hj.
  assert (U : (exists f, nth_error fl x = Some f /\ is_unconverged f = true) <-> nth_error fl x = Some UNCONVERGED).
  { split; [intros (f & E1 & E2); destruct f; try discriminate; auto|intro E; exists UNCONVERGED; auto]. }
  rewrite <- U, <- failed_in. split.
  - intro L. unfold ifailed in Hj. rewrite nth_error_app1 in Hj by lia. eapply nth_error_In; eauto.
  - intro I. destruct (lt_dec j (length (failed_first fl 0))) as [|G]; [auto|]. exfalso.
    destruct (In_nth_error _ _ I) as [j' Hj'].
    assert (L' : j' < length (failed_first fl 0)) by (apply nth_error_Some; congruence).
    assert (j = j'); [|lia].
    eapply is_perm_inj; [apply (ifailed_perm fl)|exact Hj|].
    unfold ifailed. rewrite nth_error_app1 by lia. exact Hj'.
Qed.
Print Assumptions C13_failed.

(** The position before the restart of column [x] of the restarted basis:
    columns below [idx] were kept, columns from [left] on failed. *)
Definition position_of (kept packed ifl : list nat) (idx left x : nat) : nat :=
  if x <? idx then nth x kept 0 else nth (nth (x - left) ifl 0) packed 0.

(** After the failed pairs are merged back the basis holds every kept, failed
    and retained column once, and kept and failed pairs in their old order. *)
Theorem C13_merge : forall kept packed dropped tail n fl idx npr h,
  is_perm (kept ++ packed ++ dropped) n ->
  StronglySorted lt kept -> StronglySorted lt packed ->
  length kept = idx + npr -> length fl = length packed ->
  let failed := length (failed_first fl 0) in
  idx + npr + failed <= length h ->
  exists h', lock_hVecsPerm (kept ++ packed ++ dropped ++ tail) (ifailed fl) idx npr failed h = Some h' /\
    is_perm (firstn (idx + npr + failed) h') (idx + npr + failed) /\
    (forall i x, i < idx + failed -> nth_error h' i = Some x ->
       x < idx \/ idx + npr <= x < idx + npr + failed) /\
    (forall i x, i < npr -> nth_error h' (idx + failed + i) = Some x -> x = idx + i) /\
    (forall i j x y, i < j < idx + failed -> nth_error h' i = Some x -> nth_error h' j = Some y ->
       position_of kept packed (ifailed fl) idx (idx + npr) x
       < position_of kept packed (ifailed fl) idx (idx + npr) y).
Proof.
  intros kept packed dropped tail n fl idx npr h P Sk Sp Lk Lf failed Lh.
  set (rp := kept ++ packed ++ dropped ++ tail).
  assert (Li : length (ifailed fl) = length packed) by (rewrite <- Lf; apply is_perm_length, ifailed_perm).
  assert (Ff : failed <= length (ifailed fl)) by (unfold failed, ifailed; rewrite app_length; lia).
  assert (Bi : forall j f, nth_error (ifailed fl) j = Some f -> f < length (ifailed fl)).
  { intros j f Hj. rewrite Li, <- Lf. apply (is_perm_in _ _ f (ifailed_perm fl)). eapply nth_error_In; eauto. }
  assert (Bn : forall j, j < length (ifailed fl) -> nth j (ifailed fl) 0 < length (ifailed fl)).
  { intros j Hj. apply (Bi j). now apply nth_error_nth'. }
  assert (OK : forall x, x < idx -> origin rp (ifailed fl) idx (idx + npr) x = nth x kept 0).
  { intros x Hx. unfold origin. destruct (Nat.ltb_spec x idx); [|lia]. unfold rp. rewrite app_nth1 by lia. reflexivity. }
  assert (OF : forall j, j < failed -> origin rp (ifailed fl) idx (idx + npr) (idx + npr + j) = nth (nth j (ifailed fl) 0) packed 0).
  { intros j Hj. unfold origin. destruct (Nat.ltb_spec (idx + npr + j) idx); [lia|].
    replace (idx + npr + j - (idx + npr)) with j by lia. unfold rp. rewrite app_nth2 by lia.
    specialize (Bn j ltac:(lia)). rewrite app_nth1 by lia. f_equal. lia. }
  assert (Fs : forall j j', j < j' < failed -> nth j (ifailed fl) 0 < nth j' (ifailed fl) 0).
  { intros j j' Hj. unfold ifailed. rewrite !app_nth1 by (fold failed; lia).
    apply (sorted_nth_lt (failed_first fl 0)) with (a := j) (b := j'); [rewrite failed_is; apply where_is_sorted|lia| |];
      apply nth_error_nth'; fold failed; lia. }
  assert (SN : forall l, StronglySorted lt l -> forall i j, i < j < length l -> nth i l 0 < nth j l 0).
  { intros l Hl i j Hij. apply (sorted_nth_lt l Hl i j); [lia| |]; apply nth_error_nth'; lia. }
  assert (ND : NoDup (kept ++ packed ++ dropped)) by (eapply is_perm_nodup; eauto).
  destruct (lock_hVecsPerm_ok rp (ifailed fl) idx (idx + npr) failed) with (npr := npr) (h := h)
    as (M & E & LM & PM & SM & IP); auto; try lia.
  - unfold rp. rewrite !app_length. lia.
  - intros i i' Hi. rewrite !OK by lia. apply SN; auto. lia.
  - intros j j' Hj. rewrite !OF by lia. apply SN; auto.
    pose proof (Bn j' ltac:(lia)). split; [apply Fs; lia|lia].
  - intros i j Hi Hj He. rewrite OK, OF in He by lia. pose proof (Bn j ltac:(lia)).
    assert (G1 : nth_error (kept ++ packed ++ dropped) i = Some (nth i kept 0)).
    { rewrite nth_error_app1 by lia. apply nth_error_nth'. lia. }
    assert (G2 : nth_error (kept ++ packed ++ dropped) (idx + npr + nth j (ifailed fl) 0) = Some (nth i kept 0)).
    { rewrite He, nth_error_app2 by lia. rewrite nth_error_app1 by lia.
      replace (idx + npr + nth j (ifailed fl) 0 - length kept) with (nth j (ifailed fl) 0) by lia.
      apply nth_error_nth'. lia. }
    pose proof (is_perm_inj _ _ _ _ _ P G1 G2). lia.
  - exists (M ++ seq idx npr ++ skipn (idx + npr + failed) h).
    split; [exact E|].
    assert (In1 : forall x, In x M -> x < idx \/ idx + npr <= x < idx + npr + failed).
    { intros x Hx. apply (Permutation_in _ PM) in Hx. apply in_app_or in Hx.
      destruct Hx as [Hx|Hx]; apply in_seq in Hx; lia. }
    split; [|split; [|split]].
    + rewrite app_assoc, firstn_app. rewrite app_length, seq_length, LM.
      replace (idx + npr + failed - (idx + failed + npr)) with 0 by lia. cbn [firstn].
      rewrite app_nil_r, firstn_all2; [exact IP|]. rewrite app_length, seq_length. lia.
    + intros i x Hi Hx. rewrite nth_error_app1 in Hx by lia. apply In1. eapply nth_error_In; eauto.
    + intros i x Hi Hx. rewrite nth_error_app2 in Hx by lia. rewrite nth_error_app1 in Hx by (rewrite seq_length; lia).
      replace (idx + failed + i - length M) with i in Hx by lia.
      rewrite (nth_error_nth' _ 0), seq_nth in Hx by (rewrite ?seq_length; lia). congruence.
    + intros i j x y Hij Hx Hy. rewrite nth_error_app1 in Hx, Hy by lia.
      assert (PO : forall z, In z M -> origin rp (ifailed fl) idx (idx + npr) z
                   = position_of kept packed (ifailed fl) idx (idx + npr) z).
      { intros z Hz. unfold position_of. destruct (In1 z Hz) as [G|G].
        - destruct (Nat.ltb_spec z idx); [|lia]. now apply OK.
        - destruct (Nat.ltb_spec z idx); [lia|]. replace z with (idx + npr + (z - (idx + npr))) at 1 by lia.
          apply OF. lia. }
      rewrite <- !PO by (eapply nth_error_In; eauto).
      clear - SM Hij Hx Hy. revert i j Hij Hx Hy. induction SM as [|z t St IH Hf]; intros i j Hij Hx Hy; [destruct i; discriminate|].
      destruct j as [|j]; [lia|]. destruct i as [|i].
      * injection Hx as ->. cbn in Hy. rewrite Forall_forall in Hf. apply Hf. eapply nth_error_In; eauto.
      * cbn in Hx, Hy. apply (IH i j); auto. lia.
Qed.
Print Assumptions C13_merge.

(** Two pairs to lock (0 and 3), the first fails and goes back to the front. *)
Example C13_merge_ex :
  lock_hVecsPerm [1; 2; 4; 0; 3; 5] (ifailed [UNCONVERGED; CONVERGED]) 2 1 1 [9; 9; 9; 9; 9; 9]
  = Some [3; 0; 1; 2; 9; 9].
Proof. reflexivity. Qed.

(* ------------------------------------------------------------------ *)
(** * C13 before the restart: converged pairs and the block go to the front *)
Theorem C13_front : forall flags iev bs numEvals numLocked t iw,
  bs <= length iev -> length flags <= length iw -> NoDup (firstn bs iev) ->
  (forall x, In x (firstn bs iev) -> nth_error flags x = Some UNCONVERGED) ->
  let nc := recount flags 0 numEvals numLocked 0 t in
  exists front rest,
    front_perm flags iev bs nc (length flags) iw = Some (front ++ rest ++ skipn (length flags) iw) /\
    is_perm (front ++ rest) (length flags) /\ length front = nc + bs /\
    StronglySorted lt front /\ StronglySorted lt rest /\
    (forall x, In x (firstn bs iev) -> In x front) /\
    (forall x, In x front -> In x (firstn bs iev) \/ marked flags x).
Proof.
  intros flags iev bs ne nl t iw HB HW HN HU nc.
  destruct (front_shape flags iev bs nc (length flags) iw) as (f & r & E & L & P & S0 & S1 & B1 & B2); auto.
  { pose proof (recount_nflag flags 0 ne nl 0 t). unfold nc. lia. }
  exists f, r. repeat split; auto.
  intros x Hx. destruct (B2 x Hx) as [G|G]; [auto|right; now apply flagged_marked].
Qed.
Print Assumptions C13_front.

(** What is counted: the flagged pairs among the first that are still wanted (for the
    one-sided targets among all), but never more than are still wanted. *)
Theorem C13_recount : forall flags numEvals numLocked t,
  let wanted := numEvals - numLocked in
  recount flags 0 numEvals numLocked 0 t =
  Nat.min wanted (length (filter (fun f => negb (is_unconverged f))
    (if one_sided t then flags else firstn wanted flags))).
Proof.
  intros flags ne nl t wanted.
  assert (G : forall fl i c, c <= wanted ->
    recount fl i ne nl c t =
    Nat.min wanted (c + length (filter (fun f => negb (is_unconverged f))
      (if one_sided t then fl else firstn (wanted - i) fl)))).
  { induction fl as [|f fl IH]; intros i c Hc; cbn [recount].
    - rewrite firstn_nil. destruct (one_sided t); cbn; lia.
    - assert (El : (nl + c <? ne) = (c <? wanted)).
      { unfold wanted. destruct (Nat.ltb_spec (nl + c) ne), (Nat.ltb_spec c (ne - nl)); auto; lia. }
      fold wanted. rewrite El.
      destruct (Nat.ltb_spec c wanted) as [L|L]; [|rewrite andb_false_r; cbn [andb]; rewrite IH by lia; lia].
      rewrite andb_true_r.
      destruct (one_sided t).
      + rewrite orb_true_r, andb_true_r. cbn [filter].
        destruct (is_unconverged f); cbn [negb length]; rewrite IH by lia; lia.
      + rewrite orb_false_r. destruct (Nat.ltb_spec i wanted) as [L2|L2].
        * rewrite andb_true_r. replace (wanted - i) with (S (wanted - S i)) by lia. cbn [firstn filter].
          destruct (is_unconverged f); cbn [negb length]; rewrite IH by lia; lia.
        * rewrite andb_false_r, IH by lia. replace (wanted - S i) with 0 by lia.
          replace (wanted - i) with 0 by lia. reflexivity. }
  rewrite G by lia. rewrite Nat.sub_0_r. reflexivity.
Qed.
Print Assumptions C13_recount.

Example C13_recount_ex :
  recount [UNCONVERGED; CONVERGED; CONVERGED; CONVERGED; CONVERGED] 0 5 3 0 smallest = 1 /\
  recount [UNCONVERGED; CONVERGED; CONVERGED; CONVERGED; CONVERGED] 0 5 3 0 closest_leq = 2.
Proof. split; reflexivity. Qed.

Example C13_front_ex :
  front_perm [UNCONVERGED; CONVERGED; UNCONVERGED; UNCONVERGED; CONVERGED] [3] 1
    (recount [UNCONVERGED; CONVERGED; UNCONVERGED; UNCONVERGED; CONVERGED] 0 3 0 0 smallest) 5 [9; 9; 9; 9; 9]
  = Some [1; 3; 0; 2; 4].
Proof. reflexivity. Qed.

(* ------------------------------------------------------------------ *)
(** * C33: pairing old and new coefficient vectors *)

(** If no old vector is zero and all products are numbers, so that every
    product passes the first comparison, the map pairs the old vectors one to
    one with the first new ones and leaves the others. *)
Theorem C33_map_is_permutation : forall (R : Type) (ip : nat -> nat -> R) (nrm : nat -> R)
    (gt : R -> option R -> R -> bool) (quot : R -> R -> R) nV n,
  nV <= n ->
  (forall i j, i < n -> j < nV -> gt (ip i j) None (nrm j) = true) ->
  let p := map_vecs ip nrm gt quot nV n 0 [] in
  is_perm p n /\ is_perm (firstn nV p) nV.
Proof.
  intros R ip nrm gt quot nV n HV HG p.
  destruct (map_vecs_perm ip nrm gt quot nV n 0 []) as (s & E & P & F); auto; try lia.
  - intros; apply HG; lia.
  - constructor.
  - intros x [].
  - intros _ x [].
  - unfold p. rewrite E. cbn [app Nat.add] in *. split; [exact P|apply F; lia].
Qed.
Print Assumptions C33_map_is_permutation.

(** Rational instance: the test ip > ipmax * norm with ipmax = -1 at first. *)
Definition qgt (x : Q) (m : option Q) (n : Q) : bool :=
  match m with
  | None => negb (Qle_bool x (- n))
  | Some b => negb (Qle_bool x (b * n))
  end.

Theorem C33_map_rational : forall (ip : nat -> nat -> Q) (nrm : nat -> Q) (nV n : nat),
  nV <= n -> (forall i j, (0 <= ip i j)%Q) -> (forall j, j < nV -> (0 < nrm j)%Q) ->
  let p := map_vecs ip nrm qgt Qdiv nV n 0 [] in
  is_perm p n /\ is_perm (firstn nV p) nV.
Proof.
  intros ip nrm nV n HV Hi Hn. apply C33_map_is_permutation; [exact HV|].
  intros i j _ Hj. unfold qgt. apply negb_true_iff.
  destruct (Qle_bool (ip i j) (- nrm j)) eqn:E; [|reflexivity]. exfalso.
  apply Qle_bool_iff in E. specialize (Hi i j). specialize (Hn j Hj).
  assert (nrm j <= 0)%Q; [|apply (Qlt_irrefl 0); eapply Qlt_le_trans; eauto].
  rewrite <- (Qopp_involutive (nrm j)). change 0%Q with (- 0)%Q. apply Qopp_le_compat.
  eapply Qle_trans; eauto.
Qed.
Print Assumptions C33_map_rational.

(** A zero old vector breaks the pairing: an index is used twice, and the
    reordering of the flags that follows is not a permutation. *)
Theorem C33_zero_vector_refuted : exists (ip : nat -> nat -> Q) (nrm : nat -> Q),
  (forall i j, (0 <= ip i j)%Q) /\ (forall j, (0 <= nrm j)%Q) /\
  let p := map_vecs ip nrm qgt Qdiv 2 2 0 [] in ~ NoDup p.
Proof.
  exists (fun _ j => if j =? 0 then 0%Q else 1%Q), (fun j => if j =? 0 then 0%Q else 1%Q).
  split; [intros i j; destruct (j =? 0); discriminate|].
  split; [intro j; destruct (j =? 0); discriminate|].
  vm_compute. intro H. inversion H as [|? ? A B]. apply A. now left.
Qed.
Print Assumptions C33_zero_vector_refuted.
