(** C15: a pair is declared converged only on evidence. *)
From Verif Require Import Base Values ConvModel SpecConv ConvProofs.
From Coq Require Import List Arith ZArith Bool Lia.
Import ListNotations.

(** Integer arithmetic, for the examples. *)
Definition Zr : rops Z :=
  {| r_le := Z.leb; r_lt := Z.ltb; r_add := Z.add; r_sub := Z.sub; r_mul := Z.mul; r_zero := 0%Z |}.

Lemma Zr_ordered : ordered Zr.
Proof. constructor; simpl; intros; rewrite ?Z.leb_le in *; lia. Qed.

(** A pair is flagged converged only if the user's test accepts it or its
    residual norm is at or below maxConvTol, and never on the wrong side of a
    one-sided target.  No law of arithmetic is assumed. *)
Theorem C15_converged_evidence :
  forall V (o : rops V) k test pn lo hi flags norms hVals reset r i,
  check_convergence o k test pn lo hi flags norms hVals reset = Done r ->
  lo <= i < hi -> nth_error (ck_flags r) i = Some CONVERGED ->
  exists norm hval,
    nth_error norms (i - lo) = Some norm /\ nth_error hVals i = Some hval /\
    (r_le o norm (k_maxConvTol k) = true \/ test i hval norm = Some true) /\
    ~ wrong_side o (k_hermitian k) (k_target k) (k_shift o k) hval norm.
Proof.
  intros V o k test pn lo hi flags norms hVals reset r i H Hi Hf.
  destruct (converged_spec o _ _ _ _ _ _ _ _ _ _ i H Hi Hf) as (n & h & A & B & C & D & E).
  exists n, h. repeat (split; [assumption|]).
  rewrite <- outside_spec, D. discriminate.
Qed.
Print Assumptions C15_converged_evidence.

(** The side is taken from the target shift of the pair: the one with the number of
    pairs already found, and the last one once they run out. *)
Theorem C15_shift : forall V (o : rops V) k,
  k_shifts k <> [] ->
  (k_initSize k < length (k_shifts k) -> nth_error (k_shifts k) (k_initSize k) = Some (k_shift o k)) /\
  (length (k_shifts k) <= k_initSize k -> exists before, k_shifts k = before ++ [k_shift o k]).
Proof.
  intros V o k Hne. unfold k_shift.
  destruct (k_shifts k) as [|x l] eqn:E; [congruence|]. rewrite <- E in *. clear E.
  split; intros Hl.
  - rewrite Nat.min_l by lia. apply nth_error_nth'. auto.
  - rewrite Nat.min_r by lia. exists (removelast (k_shifts k)).
    rewrite (app_removelast_last (r_zero o) Hne) at 1. repeat f_equal.
    destruct (exists_last Hne) as (a & b & ->). rewrite last_last, app_length. cbn [length].
    rewrite app_nth2 by lia. replace (length a + 1 - 1 - length a) with 0 by lia. reflexivity.
Qed.
Print Assumptions C15_shift.

(** The scale of the default test: the norms the caller gave, if positive, or else the
    largest value seen. *)
Inductive scale {V} (o : rops V) (d : default_in) : V -> Prop :=
| given_A : d_mass d = false -> r_lt o (r_zero o) (d_aNorm d) = true -> scale o d (d_aNorm d)
| given_AB : d_mass d = true -> r_lt o (r_zero o) (d_aNorm d) = true ->
    r_lt o (r_zero o) (d_invBNorm d) = true -> scale o d (r_mul o (d_aNorm d) (d_invBNorm d))
| estimated : r_lt o (r_zero o) (d_aNorm d) = false \/
    d_mass d = true /\ r_lt o (r_zero o) (d_invBNorm d) = false -> scale o d (d_largestSVal d).

(** The default test accepts exactly the residual norms below eps times that scale,
    where eps is not taken below the machine precision (twice it without a mass matrix). *)
Theorem C15_default_test : forall V (o : rops V) d rNorm s,
  scale o d s ->
  convTestFunAbsolute o d rNorm =
  r_lt o rNorm (r_mul o (r_max o (d_eps d)
    (if d_mass d then d_machine d else r_mul o (d_machine d) (d_two d))) s).
Proof.
  intros V o d rNorm s Hs. unfold convTestFunAbsolute, problemNorm0.
  destruct Hs as [H1 H2|H1 H2 H3|[H1|[H1 H2]]]; rewrite ?H1, ?H2, ?H3; cbn [negb andb]; auto;
    destruct (d_mass d); cbn [negb]; rewrite ?andb_false_r; auto.
Qed.
Print Assumptions C15_default_test.

Example C15_default_ex :
  let d := {| d_mass := true; d_eps := 2%Z; d_machine := 1%Z; d_two := 2%Z;
     d_aNorm := 3%Z; d_invBNorm := 5%Z; d_largestSVal := 1%Z |} in
  scale Zr d 15%Z /\ convTestFunAbsolute Zr d 29%Z = true /\ convTestFunAbsolute Zr d 30%Z = false.
Proof. split; [|split; reflexivity]. apply given_AB; reflexivity. Qed.

(** Conversely what the user's test accepts is flagged, unless it lies on the
    wrong side. *)
Theorem C15_accepted_is_flagged :
  forall V (o : rops V) k test pn lo hi flags norms hVals reset r i norm hval,
  check_convergence o k test pn lo hi flags norms hVals reset = Done r ->
  lo <= i < hi ->
  nth_error norms (i - lo) = Some norm -> nth_error hVals i = Some hval ->
  r_le o norm (k_maxConvTol k) = true \/ test i hval norm = Some true ->
  ~ wrong_side o (k_hermitian k) (k_target k) (k_shift o k) hval norm ->
  nth_error (ck_flags r) i = Some CONVERGED /\
  nth_error (ck_norms r) (i - lo) = Some norm.
Proof.
  intros V o k test pn lo hi flags norms hVals reset r i norm hval H Hi Hn Hh Ht Hw.
  destruct (check_spec o _ _ _ _ _ _ _ _ _ _ H ltac:(lia)) as (_ & _ & _ & _ & A & _).
  destruct (A i Hi) as (n & h & f0 & f & s & p & B1 & B2 & B3 & B4 & B5 & B6 & B7).
  assert (n = norm) by congruence. assert (h = hval) by congruence. subst n h.
  assert (J : judge o k (test i) f0 hval norm = Done (CONVERGED, false, false)).
  { unfold judge. destruct (outside o k hval norm) eqn:Eo.
    - apply outside_spec in Eo. contradiction.
    - destruct (r_le o norm (k_maxConvTol k)); [reflexivity|].
      destruct Ht as [Ht|Ht]; [discriminate|]. rewrite Ht. reflexivity. }
  rewrite J in B4. injection B4 as <- <- <-. auto.
Qed.
Print Assumptions C15_accepted_is_flagged.

(** A pair on the wrong side is always left unconverged, whatever its flag was
    and whatever the user's test would say. *)
Theorem C15_wrong_side_unconverged :
  forall V (o : rops V) k test pn lo hi flags norms hVals reset r i norm hval,
  check_convergence o k test pn lo hi flags norms hVals reset = Done r ->
  lo <= i < hi ->
  nth_error norms (i - lo) = Some norm -> nth_error hVals i = Some hval ->
  wrong_side o (k_hermitian k) (k_target k) (k_shift o k) hval norm ->
  nth_error (ck_flags r) i = Some UNCONVERGED.
Proof.
  intros V o k test pn lo hi flags norms hVals reset r i norm hval H Hi Hn Hh Hw.
  destruct (check_spec o _ _ _ _ _ _ _ _ _ _ H ltac:(lia)) as (_ & _ & _ & _ & A & _).
  destruct (A i Hi) as (n & h & f0 & f & s & p & B1 & B2 & B3 & B4 & B5 & B6 & B7).
  assert (n = norm) by congruence. assert (h = hval) by congruence. subst n h.
  apply outside_spec in Hw. unfold judge in B4. rewrite Hw in B4.
  injection B4 as <- <- <-. auto.
Qed.
Print Assumptions C15_wrong_side_unconverged.

(** A pair is flagged practically converged only when some pairs are locked
    and either the residual was given, its norm is below the attainable
    tolerance and what is left of it after removing the locked vectors is
    within the tolerance (and that norm is then the one reported); or the pair
    carried the flag already and the residual was not projected this time. *)
Theorem C15_practical_evidence :
  forall V (o : rops V) k test pn lo hi flags norms hVals reset r i,
  check_convergence o k test pn lo hi flags norms hVals reset = Done r ->
  lo <= i < hi -> nth_error (ck_flags r) i = Some PRACTICALLY_CONVERGED ->
  k_locking k = true /\ 0 < k_numLocked k /\
  exists norm hval,
    nth_error norms (i - lo) = Some norm /\ nth_error hVals i = Some hval /\
    test i hval norm = Some false /\
    ~ wrong_side o (k_hermitian k) (k_target k) (k_shift o k) hval norm /\
    ((k_givenR k = true /\ r_lt o norm (k_attainable o k) = true /\
      r_le o (pn (i - lo)) (k_tol o k) = true /\
      nth_error (ck_norms r) (i - lo) = Some (pn (i - lo))) \/
     (nth_error flags i = Some PRACTICALLY_CONVERGED /\
      (k_givenR k = false \/ r_lt o norm (k_attainable o k) = false) /\
      nth_error (ck_norms r) (i - lo) = Some norm)).
Proof.
  intros V o k test pn lo hi flags norms hVals reset r i H Hi Hf.
  destruct (check_spec o _ _ _ _ _ _ _ _ _ _ H ltac:(lia)) as (_ & _ & _ & _ & A & _).
  destruct (A i Hi) as (n & h & f0 & f & s & p & B1 & B2 & B3 & B4 & B5 & B6 & B7).
  rewrite B7 in Hf. unfold judge in B4.
  destruct (outside o k h n) eqn:Eo.
  { injection B4 as <- <- <-. discriminate. }
  destruct (r_le o n (k_maxConvTol k)) eqn:El.
  { injection B4 as <- <- <-. discriminate. }
  destruct (test i h n) as [[|]|] eqn:Et; [injection B4 as <- <- <-; discriminate| |discriminate].
  destruct (r_le o n (k_residualError k) && k_hasReset k).
  { injection B4 as <- <- <-. discriminate. }
  destruct (k_locking k && (0 <? k_numLocked k) && (0 <=? k_pract k)%Z) eqn:Ek;
    [|injection B4 as <- <- <-; discriminate].
  apply andb_true_iff in Ek. destruct Ek as [Ek _]. apply andb_true_iff in Ek.
  destruct Ek as [Ek1 Ek2]. apply Nat.ltb_lt in Ek2.
  split; [auto|]. split; [auto|]. exists n, h. repeat (split; [assumption|]).
  split; [rewrite <- outside_spec, Eo; discriminate|].
  destruct (k_givenR k && r_lt o n (k_attainable o k)) eqn:Eg.
  - injection B4 as <- <- <-. apply andb_true_iff in Eg. destruct Eg.
    left. destruct (r_le o (pn (i - lo)) (k_tol o k)); [auto|discriminate].
  - apply andb_false_iff in Eg. right.
    destruct f0; injection B4 as <- <- <-; try discriminate. auto.
Qed.
Print Assumptions C15_practical_evidence.

(** A pair is put aside until the next restart only if its residual norm is
    within the error of the residual; a reset is requested exactly then. *)
Theorem C15_put_aside :
  forall V (o : rops V) k test pn lo hi flags norms hVals reset r,
  check_convergence o k test pn lo hi flags norms hVals reset = Done r -> lo <= hi ->
  (ck_reset r = true <->
     reset = true \/
     exists i norm hval, lo <= i < hi /\ nth_error norms (i - lo) = Some norm /\
       nth_error hVals i = Some hval /\ k_hasReset k = true /\
       ~ wrong_side o (k_hermitian k) (k_target k) (k_shift o k) hval norm /\
       r_le o norm (k_maxConvTol k) = false /\ test i hval norm = Some false /\
       r_le o norm (k_residualError k) = true).
Proof.
  intros V o k test pn lo hi flags norms hVals reset r H Hlh.
  destruct (check_spec o _ _ _ _ _ _ _ _ _ _ H Hlh) as (_ & _ & _ & _ & A & B & C).
  split.
  - intros Hr. destruct (B Hr) as [D|(j & n & h & f0 & f & p & D1 & D2 & D3 & D4 & D5)]; [auto|].
    right. exists j, n, h. repeat (split; [assumption|]).
    unfold judge in D5.
    destruct (outside o k h n) eqn:Eo; [discriminate|].
    destruct (r_le o n (k_maxConvTol k)); [discriminate|].
    destruct (test j h n) as [[|]|]; [discriminate| |discriminate].
    destruct (r_le o n (k_residualError k)) eqn:Er; cbn [andb] in D5.
    + destruct (k_hasReset k); [|].
      * repeat split; auto. rewrite <- outside_spec, Eo. discriminate.
      * destruct (_ && _ && _); [|discriminate].
        destruct (_ && _); [discriminate|]. destruct f0; discriminate.
    + destruct (_ && _ && _); [|discriminate].
      destruct (_ && _); [discriminate|]. destruct f0; discriminate.
  - intros [Hr|(i & n & h & D1 & D2 & D3 & D4 & D5 & D6 & D7 & D8)]; [auto|].
    destruct (A i D1) as (n' & h' & f0 & f & s & p & B1 & B2 & B3 & B4 & B5 & B6 & B7).
    assert (n' = n) by congruence. assert (h' = h) by congruence. subst n' h'.
    apply B5. unfold judge in B4. rewrite <- outside_spec in D5.
    destruct (outside o k h n); [exfalso; auto|].
    rewrite D6, D7, D8, D4 in B4. injection B4 as <- <- <-. reflexivity.
Qed.
Print Assumptions C15_put_aside.

(** Nothing outside the checked positions changes, and a reported norm changes
    only by being replaced with the projected norm. *)
Theorem C15_only_checked_pairs :
  forall V (o : rops V) k test pn lo hi flags norms hVals reset r,
  check_convergence o k test pn lo hi flags norms hVals reset = Done r -> lo <= hi ->
  length (ck_flags r) = length flags /\ length (ck_norms r) = length norms /\
  (forall j, j < lo \/ hi <= j -> nth_error (ck_flags r) j = nth_error flags j) /\
  (forall j, nth_error (ck_norms r) j <> nth_error norms j ->
     j < hi - lo /\ k_givenR k = true /\ k_locking k = true /\
     nth_error (ck_norms r) j = Some (pn j)).
Proof.
  intros V o k test pn lo hi flags norms hVals reset r H Hlh.
  destruct (check_spec o _ _ _ _ _ _ _ _ _ _ H Hlh) as (A1 & A2 & A3 & A4 & A5 & _).
  repeat (split; [assumption|]).
  intros j Hj.
  assert (Lj : j < hi - lo) by (destruct (le_lt_dec (hi - lo) j); [exfalso; auto|auto]).
  split; [auto|].
  destruct (A5 (lo + j) ltac:(lia)) as (n & h & f0 & f & s & p & B1 & B2 & B3 & B4 & B5 & B6 & B7).
  replace (lo + j - lo) with j in * by lia.
  destruct p; [|congruence].
  unfold judge in B4. destruct (outside o k h n); [discriminate|].
  destruct (r_le o n (k_maxConvTol k)); [discriminate|].
  destruct (test _ h n) as [[|]|]; [discriminate| |discriminate].
  destruct (_ && k_hasReset k); [discriminate|].
  destruct (k_locking k && _ && _) eqn:Ek; [|discriminate].
  apply andb_true_iff in Ek. destruct Ek as [Ek _]. apply andb_true_iff in Ek.
  destruct (k_givenR k && _) eqn:Eg; [|destruct f0; discriminate].
  apply andb_true_iff in Eg. intuition.
Qed.
Print Assumptions C15_only_checked_pairs.

(** With arrays that cover the checked positions no access is out of range. *)
Theorem C15_in_bounds :
  forall V (o : rops V) k test pn lo hi flags norms hVals reset,
  lo <= hi -> hi <= length flags -> hi <= length hVals -> hi - lo <= length norms ->
  check_convergence o k test pn lo hi flags norms hVals reset <> Stuck.
Proof.
  intros V o k test pn lo hi flags norms hVals reset H1 H2 H3 H4.
  unfold check_convergence.
  assert (L : forall cnt i fl rs pr, i + cnt <= length fl -> i + cnt <= length hVals ->
    lo <= i -> i - lo + cnt <= length norms ->
    check_loop o k test lo norms hVals cnt i fl rs pr <> Stuck).
  { induction cnt as [|c IH]; intros i fl rs pr B1 B2 B3 B4; cbn [check_loop]; [discriminate|].
    destruct (get_some _ norms (i - lo) ltac:(lia)) as [n ->].
    destruct (get_some _ hVals i ltac:(lia)) as [h ->].
    destruct (get_some _ fl i ltac:(lia)) as [f0 ->]. cbn [lift obind].
    destruct (judge o k (test i) f0 h n) as [[[f s] p]| |] eqn:Ej; cbn [obind];
      [|discriminate|].
    - rewrite put_some by lia. cbn [lift obind].
      apply IH; rewrite ?length_upd; lia.
    - exfalso. revert Ej. unfold judge.
      repeat match goal with |- context [if ?b then _ else _] => destruct b end; try discriminate;
      destruct (test i h n) as [[|]|]; try discriminate;
      repeat match goal with |- context [if ?b then _ else _] => destruct b end; try discriminate;
      destruct f0; discriminate. }
  specialize (L (hi - lo) lo flags reset []).
  destruct (check_loop o k test lo norms hVals (hi - lo) lo flags reset []) as [[[fl rs] pr]| |] eqn:E;
    cbn [obind]; [|discriminate|exfalso; apply L; auto; lia].
  destruct (check_loop_spec o _ _ _ _ _ _ _ _ _ _ _ _ _ E (le_n lo))
    as (A1 & _ & _ & (l & A4 & A5 & A6) & _).
  cbn [app] in A4. subst pr.
  assert (Q : forall iev fl0 nm0, (forall x, In x iev -> x < hi - lo) ->
    length fl0 = length flags -> length nm0 = length norms ->
    exists z, project_loop o k pn lo iev fl0 nm0 = Done z).
  { induction iev as [|j t IH]; intros fl0 nm0 R1 R2 R3; cbn [project_loop]; [eauto|].
    pose proof (R1 j (or_introl eq_refl)).
    rewrite !put_some by lia. cbn [lift obind].
    apply IH; rewrite ?length_upd; auto. intros x Hx. apply R1. right; auto. }
  destruct (Q l fl norms) as [z ->]; auto.
  - intros x Hx. destruct (A6 x Hx) as (j & _ & _ & _ & _ & _ & C & -> & _). lia.
  - cbn [obind]. discriminate.
Qed.
Print Assumptions C15_in_bounds.

(** A residual norm that is not a number is never accepted by the default
    test, and the pair is not flagged converged. *)
Theorem C15_nan_not_converged :
  forall V (o : rops V) k (d : nat -> default_in) pn lo hi flags norms hVals reset r i norm,
  check_convergence o k (fun i _ x => Some (convTestFunAbsolute o (d i) x))
    pn lo hi flags norms hVals reset = Done r ->
  lo <= i < hi -> nth_error norms (i - lo) = Some norm -> unordered o norm ->
  nth_error (ck_flags r) i <> Some CONVERGED /\
  nth_error (ck_flags r) i <> Some SKIP_UNTIL_RESTART /\
  (nth_error (ck_flags r) i = Some PRACTICALLY_CONVERGED ->
     nth_error flags i = Some PRACTICALLY_CONVERGED).
Proof.
  intros V o k d pn lo hi flags norms hVals reset r i norm H Hi Hn Hu.
  destruct (check_spec o _ _ _ _ _ _ _ _ _ _ H ltac:(lia)) as (_ & _ & _ & _ & A & _).
  destruct (A i Hi) as (n & h & f0 & f & s & p & B1 & B2 & B3 & B4 & B5 & B6 & B7).
  assert (n = norm) by congruence. subst n.
  assert (T : convTestFunAbsolute o (d i) norm = false).
  { unfold convTestFunAbsolute.
    destruct (negb (d_mass (d i))); apply (Hu _). }
  unfold judge in B4. rewrite T in B4.
  destruct (outside o k h norm).
  { injection B4 as <- <- <-. rewrite B7. repeat split; discriminate. }
  rewrite (proj1 (Hu (k_maxConvTol k))), (proj1 (Hu (k_residualError k))) in B4.
  rewrite (proj1 (proj2 (proj2 (Hu (k_attainable o k))))) in B4.
  rewrite andb_false_r in B4. cbn [andb] in B4.
  destruct (_ && _ && _) in B4.
  - destruct f0; injection B4 as <- <- <-; rewrite B7; repeat split; try discriminate; auto.
  - injection B4 as <- <- <-. rewrite B7. repeat split; discriminate.
Qed.
Print Assumptions C15_nan_not_converged.

(** History: as long as the tolerance is only raised by accepted pairs, a test
    that never accepts a residual norm above [T] never lets a pair with a
    residual norm above [T] be flagged converged, however many checks,
    restarts and recounts come before. *)
Theorem C15_no_looser_than_test :
  forall V (o : rops V) T es s k test pn lo hi flags norms hVals counts r i norm,
  ordered o -> r_le o (r_zero o) T = true ->
  (forall e, In e es -> forall l, e <> OrthoLevel l) ->
  (forall x, accepted_by_user (es ++ [Check k test pn lo hi flags norms hVals counts]) x ->
     r_le o x T = true) ->
  tol_run o (tol_init o) es = Done s ->
  check_convergence o (with_tol k (t_tol s)) test pn lo hi flags norms hVals false = Done r ->
  lo <= i < hi -> nth_error (ck_flags r) i = Some CONVERGED ->
  nth_error norms (i - lo) = Some norm ->
  r_le o norm T = true.
Proof.
  intros V o T es s k test pn lo hi flags norms hVals counts r i norm OK HT Hl Hacc Hrun Hc Hi Hf Hn.
  set (P := fun x => r_le o x T = true).
  assert (Inv : inv o P s).
  { eapply (tol_run_inv o OK P); eauto.
    - split; [left; apply r_le_refl; auto|constructor].
    - apply Forall_forall. intros e He. specialize (Hl e He). destruct e; cbn; auto.
      exfalso. eapply Hl; eauto.
    - apply Forall_forall. intros e He x (k0 & t0 & p0 & l0 & h0 & f0 & n0 & v0 & c0 & i0 & w0 & Q1 & Q2).
      apply Hacc. exists k0, t0, p0, l0, h0, f0, n0, v0, c0, i0, w0. split; [|auto].
      apply in_or_app. left. destruct Q1 as [<-|[]]. auto. }
  destruct (converged_spec o _ _ _ _ _ _ _ _ _ _ i Hc Hi Hf) as (n & h & A1 & A2 & A3 & _ & A5).
  assert (n = norm) by congruence. subst n.
  assert (B : bounded o P norm).
  { eapply (checked_bounded o OK P k test pn lo hi flags norms hVals counts (t_tol s) r (i - lo)); eauto;
      try (apply Inv); try lia.
    - intros x (k0 & t0 & p0 & l0 & h0 & f0 & n0 & v0 & c0 & i0 & w0 & Q1 & Q2).
      apply Hacc. exists k0, t0, p0, l0, h0, f0, n0, v0, c0, i0, w0. split; [|auto].
      apply in_or_app. right. auto.
    - replace (lo + (i - lo)) with i by lia. auto. }
  destruct B as [B|(x & Px & B)]; eapply (ord_trans o OK); eauto.
Qed.
Print Assumptions C15_no_looser_than_test.

(* ------------------------------------------------------------------ *)
(** Concrete data: locking with two locked pairs, residual given. *)
Definition k_ex : conv_in (V := Z) :=
  {| k_hermitian := true; k_target := closest_leq; k_shifts := [100%Z]; k_initSize := 0;
     k_locking := true; k_numLocked := 2; k_maxConvTol := 3%Z; k_residualError := 1%Z;
     k_epsnorm := 2%Z; k_sqrt := 2%Z; k_givenR := true; k_hasReset := true; k_pract := 0%Z |}.

(** Five pairs: below maxConvTol; accepted by the test; projected and within
    tolerance; projected and not; on the wrong side. *)
Example C15_witness :
  check_convergence Zr k_ex (fun _ _ n => Some (n <=? 4)%Z)
    (fun j => if Nat.eqb j 2 then 3%Z else 4%Z) 1 6
    [CONVERGED; UNCONVERGED; UNCONVERGED; UNCONVERGED; UNCONVERGED; CONVERGED]
    [3; 4; 5; 5; 2]%Z [7; 10; 20; 30; 40; 110]%Z false
  = Done {| ck_flags := [CONVERGED; CONVERGED; CONVERGED; PRACTICALLY_CONVERGED; UNCONVERGED; UNCONVERGED];
            ck_norms := [3; 4; 3; 4; 2]%Z; ck_reset := false |}.
Proof. vm_compute. reflexivity. Qed.

(** A history the theorem above applies to: the first check accepts norms 1
    and 4, the second then flags a pair of norm 3 that the stricter test of
    that moment refuses; the bound T = 4 holds for it. *)
Example C15_history_witness :
  match tol_run Zr (tol_init Zr)
    [Check k_ex (fun _ _ n => Some (n <=? 4)%Z) (fun _ => 0%Z) 0 2
       [UNCONVERGED; UNCONVERGED] [1; 4]%Z [1; 2]%Z (fun _ => true)] with
  | Done s => t_tol s = 4%Z /\
      match check_convergence Zr (with_tol k_ex (t_tol s)) (fun _ _ n => Some (n <=? 1)%Z)
              (fun _ => 0%Z) 0 1 [UNCONVERGED] [3]%Z [5]%Z false with
      | Done r => ck_flags r = [CONVERGED]
      | _ => False
      end
  | _ => False
  end.
Proof. vm_compute. auto. Qed.

(** The claim "or the largest tolerance already accepted" fails: a restart
    raises maxConvTol to the loss of orthogonality of the basis times the norm
    of the matrix (src/eigs/restart.c 431-435), and a pair whose residual norm
    no test has accepted, and no accepted pair has reached, is then flagged. *)
Theorem C15_orthogonality_raises_refuted :
  exists es s (test : nat -> Z -> Z -> option bool),
    (forall k test0 pn lo hi flags norms hVals counts,
       ~ In (Check k test0 pn lo hi flags norms hVals counts) es) /\
    tol_run Zr (tol_init Zr) es = Done s /\
    (forall i h n, test i h n = Some true <-> (n <= 1)%Z) /\
    match check_convergence Zr (with_tol k_ex (t_tol s)) test (fun _ => 0%Z) 0 1
            [UNCONVERGED] [9]%Z [5]%Z false with
    | Done r => ck_flags r = [CONVERGED]
    | _ => False
    end.
Proof.
  exists [OrthoLevel 10%Z], {| t_tol := 10%Z; t_recorded := [] |}, (fun _ _ n => Some (n <=? 1)%Z).
  split; [intros; intros [C|[]]; discriminate|].
  split; [reflexivity|].
  split; [intros i h n; rewrite <- Z.leb_le; split; [intros C; injection C; auto|intros ->; auto]|].
  vm_compute. reflexivity.
Qed.
Print Assumptions C15_orthogonality_raises_refuted.

(** The claim "practically converged requires the projected residual to be
    within tolerance" fails for a pair that carried the flag: with the residual
    at hand and its norm far above every tolerance, the pair keeps the flag and
    no projection is made (convergence.c 171-178; the comment above it allows
    this only when the residual is not given). *)
Theorem C15_practical_outgrown_refuted :
  exists k (test : nat -> Z -> Z -> option bool) norm,
    k_givenR k = true /\ (k_attainable Zr k < norm)%Z /\ (k_tol Zr k < norm)%Z /\
    test 0 5%Z norm = Some false /\
    forall pn,
      check_convergence Zr k test pn 0 1 [PRACTICALLY_CONVERGED] [norm] [5]%Z false
      = Done {| ck_flags := [PRACTICALLY_CONVERGED]; ck_norms := [norm]; ck_reset := false |}.
Proof.
  exists k_ex, (fun _ _ n => Some (n <=? 1)%Z), 1000%Z. repeat split.
Qed.
Print Assumptions C15_practical_outgrown_refuted.

(** Numbers with a NaN, for the theorem on unordered norms. *)
Definition NZr : rops (option Z) :=
  let c f a b := match a, b with Some x, Some y => f x y | _, _ => false end in
  let g f a b := match a, b with Some x, Some y => Some (f x y) | _, _ => None end in
  {| r_le := c Z.leb; r_lt := c Z.ltb; r_add := g Z.add; r_sub := g Z.sub; r_mul := g Z.mul;
     r_zero := Some 0%Z |}.

Example C15_nan_witness :
  unordered NZr None /\
  let k := {| k_hermitian := true; k_target := smallest; k_shifts := []; k_initSize := 0;
     k_locking := true; k_numLocked := 2; k_maxConvTol := Some 3%Z; k_residualError := Some 1%Z;
     k_epsnorm := Some 2%Z; k_sqrt := Some 2%Z; k_givenR := true; k_hasReset := true; k_pract := 0%Z |} in
  let d := {| d_mass := false; d_eps := Some 2%Z; d_machine := Some 1%Z; d_two := Some 2%Z;
     d_aNorm := Some 0%Z; d_invBNorm := Some 0%Z; d_largestSVal := Some 5%Z |} in
  check_convergence NZr k (fun _ _ x => Some (convTestFunAbsolute NZr d x)) (fun _ => None) 0 3
    [CONVERGED; CONVERGED; UNCONVERGED] [None; Some 9%Z; Some 10%Z]
    [Some 7%Z; Some 8%Z; Some 8%Z] false
  = Done {| ck_flags := [UNCONVERGED; CONVERGED; UNCONVERGED];
            ck_norms := [None; Some 9%Z; Some 10%Z]; ck_reset := false |}.
Proof. split; [intros [y|]; repeat split|vm_compute; reflexivity]. Qed.
