(** C24: block selection picks distinct unconverged pairs within limits. *)
From Verif Require Import Base Values PermModel SelectModel SelectProofs.
From Coq Require Import List Arith ZArith Bool Lia Sorted.
Import ListNotations.

(** The pairs chosen for expansion. *)
Definition chosen {N X} (s : @sel N X) : list nat := firstn (s_bs s) (s_iev s).

(** What the caller hands over: arrays long enough, and [bns] pairs, in
    increasing position, whose residual is already known. *)
Record handed_over {N X} (q : sel_in) (vec : nat -> X) (flags : list flag) (bnorms : list N)
       (iev : list nat) (norms : list N) (xs : list X) (bns : nat) : Prop := {
  ho_flags : length flags = q_basisSize q;
  ho_bnorms : length bnorms = q_basisSize q;
  ho_iev : q_cap q <= length iev;
  ho_norms : q_cap q <= length norms;
  ho_xs : q_cap q <= length xs;
  ho_fits : bns <= q_cap q;
  ho_sorted : StronglySorted lt (firstn bns iev);
  ho_pairs : Forall (fun p => p < q_basisSize q) (firstn bns iev);
  ho_vecs : forall j p, nth_error (firstn bns iev) j = Some p -> nth_error xs j = Some (vec p) }.

Lemma nth_error_firstn : forall A n (l : list A) j,
  nth_error (firstn n l) j = if j <? n then nth_error l j else None.
Proof.
  induction n; intros [|x l] [|j]; simpl; auto.
  - destruct (S j <? S n); auto.
  - rewrite IHn. reflexivity.
Qed.

Lemma sorted_of_nth : forall l,
  (forall j j' p p', j < j' -> nth_error l j = Some p -> nth_error l j' = Some p' -> p < p') ->
  StronglySorted lt l.
Proof.
  induction l as [|x l IH]; intros H; constructor.
  - apply IH. intros j j' p p' L. apply (H (S j) (S j') p p'). lia.
  - apply Forall_forall. intros y Hy. apply In_nth_error in Hy. destruct Hy as [j Hj].
    apply (H 0 (S j) x y); auto. lia.
Qed.

Lemma nth_of_sorted : forall l, StronglySorted lt l ->
  forall j j' p p', j < j' -> nth_error l j = Some p -> nth_error l j' = Some p' -> p < p'.
Proof.
  induction 1 as [|x l S IH F]; intros j j' p p' L E1 E2.
  - destruct j; discriminate.
  - destruct j' as [|j']; [lia|]. cbn [nth_error] in E2. destruct j as [|j]; cbn [nth_error] in E1.
    + injection E1 as <-. rewrite Forall_forall in F. apply F. eapply nth_error_In; eauto.
    + eapply (IH j j'); eauto. lia.
Qed.

Section C24.
Context {N X : Type}.
Variable q : sel_in.
Variable verdict : nat -> nat -> flag -> N -> flag * N.
Variable resid : nat -> nat -> N.
Variable vec : nat -> X.
Variable side : nat -> nat -> bool.
Variable floor : N -> N.

Lemma start_inv : forall (P : nat -> Prop) flags (bnorms : list N) iev norms xs bns,
  handed_over q vec flags bnorms iev norms xs bns ->
  (forall p p', P p -> In p' (firstn bns iev) -> p < p' ->
     nth_error flags p = Some UNCONVERGED -> In p (firstn bns iev)) ->
  inv q vec side P (mkSel flags bnorms iev norms xs 0 0 (Z.of_nat (q_cap q)) 0) 0 bns.
Proof.
  intros P flags bnorms iev norms xs bns [H1 H2 H3 H4 H5 H6 H7 H8 H9] HP.
  assert (At : forall j p, j < bns -> nth_error iev j = Some p ->
                 nth_error (firstn bns iev) j = Some p).
  { intros j p L E. rewrite nth_error_firstn. destruct (Nat.ltb_spec j bns); [auto|lia]. }
  constructor; cbn [s_flags s_bnorms s_iev s_norms s_xs s_bs s_rc s_max s_next]; auto; try lia.
  - intros j Hj. destruct (get_some _ iev j ltac:(lia)) as [p Ep]. unfold get in Ep.
    pose proof (At j p ltac:(lia) Ep) as Ej.
    exists p. split; [auto|]. split; [|apply H9; auto].
    rewrite Forall_forall in H8. split; [lia|]. apply H8. eapply nth_error_In; eauto.
  - intros j j' p p' _ L1 L2 E1 E2. eapply (nth_of_sorted _ H7 j j'); eauto; apply At; auto; lia.
  - intros p j p' Hj Ej _ L HPp HU.
    assert (In p (firstn bns iev)) as Hin.
    { eapply HP; eauto. eapply nth_error_In. apply (At j); eauto. lia. }
    apply In_nth_error in Hin. destruct Hin as [j' Hj'].
    pose proof Hj' as Hj2. rewrite nth_error_firstn in Hj2.
    destruct (Nat.ltb_spec j' bns) as [L'|]; [|discriminate].
    exists j'. split; [|auto]. split; [lia|].
    destruct (lt_eq_lt_dec j' j) as [[C|C]|C]; auto.
    + subst j'. assert (p = p') by congruence. lia.
    + pose proof (nth_of_sorted _ H7 j j' p' p C (At j p' ltac:(lia) Ej) Hj'). lia.
Qed.

(** Every call succeeds (no access out of range, no endless loop), and the
    pairs it chooses are distinct, in increasing position, unconverged, at most
    as many as the limit; the residual norm and the vector stored for each are
    its own. *)
Theorem C24_selection : forall flags bnorms iev norms xs bns,
  handed_over q vec flags bnorms iev norms xs bns ->
  exists s', prepare_candidates q verdict resid vec side floor flags bnorms iev norms xs bns = Some s' /\
    length (chosen s') = s_bs s' /\ s_bs s' <= q_cap q /\
    StronglySorted lt (chosen s') /\
    (forall j p, nth_error (chosen s') j = Some p ->
       p < q_basisSize q /\ nth_error (s_flags s') p = Some UNCONVERGED /\
       nth_error (s_xs s') j = Some (vec p) /\
       exists nm, nth_error (s_norms s') j = Some nm /\ nth_error (s_bnorms s') p = Some nm) /\
    (0 <= s_rc s' <= Z.max 0 (q_remained q))%Z /\
    (Z.of_nat (q_cap q) <= q_numEvals q + 1 - q_numConverged q ->
     Z.of_nat (s_bs s') + s_rc s' <= q_numEvals q + 1 - q_numConverged q)%Z.
Proof.
  intros flags bnorms iev norms xs bns H.
  pose proof (start_inv (fun _ => False) flags bnorms iev norms xs bns H ltac:(contradiction)) as I.
  destruct (rounds_ok q verdict resid vec side floor (fun _ => False) (S (S (q_basisSize q))) 0 bns _ I)
    as (s' & E & I' & Rc & _).
  - cbn [s_rc]. lia.
  - cbn [s_next]. destruct (_ && _); lia.
  - exists s'. split; [exact E|].
    assert (L : length (chosen s') = s_bs s').
    { unfold chosen. rewrite firstn_length. pose proof (i_iev _ _ _ _ _ _ _ I').
      pose proof (i_cap _ _ _ _ _ _ _ I'). lia. }
    split; [auto|]. split; [pose proof (i_cap _ _ _ _ _ _ _ I'); lia|]. split; [|split; [|split]].
    + apply sorted_of_nth. unfold chosen. intros j j' p p' Hj E1 E2.
      rewrite nth_error_firstn in E1, E2.
      destruct (Nat.ltb_spec j (s_bs s')); [|discriminate].
      destruct (Nat.ltb_spec j' (s_bs s')); [|discriminate].
      eapply (i_inc _ _ _ _ _ _ _ I' j j'); eauto.
    + intros j p Ej. unfold chosen in Ej. rewrite nth_error_firstn in Ej.
      destruct (Nat.ltb_spec j (s_bs s')); [|discriminate].
      destruct (i_pre _ _ _ _ _ _ _ I' j ltac:(auto)) as (p0 & nm & C1 & C2 & C3 & C4 & C5 & C6).
      assert (p0 = p) by congruence. subst p0.
      pose proof (i_next _ _ _ _ _ _ _ I').
      repeat split; auto; [lia|eauto].
    + split; [apply (i_rc _ _ _ _ _ _ _ I')|auto].
    + intros C. pose proof (i_lim _ _ _ _ _ _ _ I' C). lia.
Qed.

(** No pair is passed over: an unconverged pair that is not chosen, and was not
    found on the wrong side of a one-sided target, comes after all the chosen
    ones, and then the block is full or enough pairs have converged. *)
Theorem C24_nothing_passed_over : forall flags bnorms iev norms xs bns s' p,
  handed_over q vec flags bnorms iev norms xs bns ->
  (forall p p', In p' (firstn bns iev) -> p < p' ->
     nth_error flags p = Some UNCONVERGED -> In p (firstn bns iev)) ->
  prepare_candidates q verdict resid vec side floor flags bnorms iev norms xs bns = Some s' ->
  p < q_basisSize q -> nth_error (s_flags s') p = Some UNCONVERGED ->
  ~ In p (chosen s') -> (forall r, side r p = false) ->
  Forall (fun p' => p' < p) (chosen s') /\
  ((s_max s' <= Z.of_nat (length (chosen s')))%Z \/ (q_remained q <= s_rc s')%Z).
Proof.
  intros flags bnorms iev norms xs bns s' p H HP E Hp HU Hn Hs.
  pose proof (start_inv (fun _ => True) flags bnorms iev norms xs bns H ltac:(intros; eauto)) as I.
  destruct (rounds_ok q verdict resid vec side floor (fun _ => True) (S (S (q_basisSize q))) 0 bns _ I)
    as (s2 & E2 & I' & Rc & Fin).
  - cbn [s_rc]. lia.
  - cbn [s_next]. destruct (_ && _); lia.
  - unfold prepare_candidates in E. rewrite E in E2. injection E2 as <-.
    assert (L : length (chosen s') = s_bs s').
    { unfold chosen. rewrite firstn_length. pose proof (i_iev _ _ _ _ _ _ _ I').
      pose proof (i_cap _ _ _ _ _ _ _ I'). lia. }
    assert (Ge : s_next s' <= p).
    { destruct (le_lt_dec (s_next s') p) as [|Lt]; [auto|]. exfalso.
      destruct (i_seen _ _ _ _ _ _ _ I' p Lt Logic.I HU) as [(j & C1 & C2)|(r & C)].
      - apply Hn. apply (nth_error_In _ j). unfold chosen. rewrite nth_error_firstn.
        destruct (Nat.ltb_spec j (s_bs s')); [auto|lia].
      - rewrite Hs in C. discriminate. }
    split.
    + apply Forall_forall. intros p' Hp'. apply In_nth_error in Hp'. destruct Hp' as [j Ej].
      unfold chosen in Ej. rewrite nth_error_firstn in Ej.
      destruct (Nat.ltb_spec j (s_bs s')); [|discriminate].
      destruct (i_pre _ _ _ _ _ _ _ I' j ltac:(auto)) as (p0 & nm & C1 & C2 & _).
      assert (p0 = p') by congruence. lia.
    + rewrite L. destruct Fin as [C|[C|C]]; auto. exfalso. apply (C p); auto.
Qed.

(** The caller's limits: at most the block size the user set, at most the room
    left in the basis, at most the number of pairs still wanted (not counting those found
    converged in the call) plus one. *)
Theorem C24_limits : forall flags bnorms iev norms xs bns s' byShift
    maxBlockSize maxBasisSize numLocked,
  handed_over q vec flags bnorms iev norms xs bns ->
  Z.of_nat (q_cap q) = available byShift maxBlockSize maxBasisSize
      (Z.of_nat (q_basisSize q)) (q_numEvals q) (q_numConverged q) numLocked ->
  (1 <= maxBlockSize)%Z ->
  prepare_candidates q verdict resid vec side floor flags bnorms iev norms xs bns = Some s' ->
  let b := Z.of_nat (length (chosen s')) in
  (b <= maxBlockSize)%Z /\ (Z.of_nat (q_basisSize q) + b <= maxBasisSize)%Z /\
  (q_numConverged q <= q_numEvals q ->
   b + s_rc s' <= q_numEvals q - q_numConverged q + 1)%Z.
Proof.
  intros flags bnorms iev norms xs bns s' byShift mb mB nl H Hc H1 E b.
  destruct (C24_selection flags bnorms iev norms xs bns H) as (s2 & E2 & L & Lc & _ & _ & _ & Lim).
  rewrite E in E2. injection E2 as <-.
  unfold b. rewrite L. unfold available, max_recent in Hc. clear - Hc Lc H1 Lim.
  destruct byShift; repeat split; intros; try discriminate; lia.
Qed.

End C24.
Print Assumptions C24_selection.
Print Assumptions C24_nothing_passed_over.
Print Assumptions C24_limits.

(* ------------------------------------------------------------------ *)
(** A concrete call: seven pairs, room for three, two residuals known (0 and 1).
    Pair 0 converges; 1 is taken; 2 carries a flag; 3 converges when computed;
    4 is on the wrong side; 5 and then nothing else fits. *)
Definition q_ex : sel_in :=
  {| q_basisSize := 7; q_cap := 3; q_numEvals := 6%Z; q_numLocked := 0%Z;
     q_numConverged := 1%Z; q_remained := 5%Z; q_target := closest_geq |}.

Definition verdict_ex (r p : nat) (f : flag) (n : Z) : flag * Z :=
  ((if (n <? 5)%Z then CONVERGED else UNCONVERGED), n).
Definition resid_ex (r p : nat) : Z := nth p [0; 0; 0; 3; 8; 9; 7]%Z 0%Z.
Definition side_ex (r p : nat) : bool := Nat.eqb p 4.

Example C24_witness :
  handed_over q_ex (fun p => p)
    [UNCONVERGED; UNCONVERGED; PRACTICALLY_CONVERGED; UNCONVERGED; UNCONVERGED; UNCONVERGED; UNCONVERGED]
    [0; 0; 0; 0; 0; 0; 0]%Z [0; 1; 9] [1; 6; 0]%Z [0; 1; 9] 2 /\
  match prepare_candidates q_ex verdict_ex resid_ex (fun p => p) side_ex (fun n => n)
    [UNCONVERGED; UNCONVERGED; PRACTICALLY_CONVERGED; UNCONVERGED; UNCONVERGED; UNCONVERGED; UNCONVERGED]
    [0; 0; 0; 0; 0; 0; 0]%Z [0; 1; 9] [1; 6; 0]%Z [0; 1; 9] 2 with
  | Some s => chosen s = [1; 5; 6] /\ s_rc s = 2%Z /\ firstn 3 (s_norms s) = [6; 9; 7]%Z /\
      s_xs s = [1; 5; 6] /\
      s_flags s = [CONVERGED; UNCONVERGED; PRACTICALLY_CONVERGED; CONVERGED; UNCONVERGED; UNCONVERGED; UNCONVERGED]
  | None => False
  end.
Proof.
  split.
  - constructor; simpl; auto; try lia.
    + repeat constructor.
    + repeat constructor.
    + intros [|[|j]] p E; simpl in E; try (injection E as <-; reflexivity). destruct j; discriminate.
  - vm_compute. repeat split.
Qed.

(** The residuals already known may be more than the limit of the call: with
    several target shifts and the QR factorisation kept, the caller allows one
    pair (main_iter.c 527-529) while a restart may hand over up to
    maxBlockSize (restart.c 862-870, 1175).  The work arrays of the call have
    one cell, and the second pair is written past their end. *)
Theorem C24_block_buffer_refuted :
  exists q flags bnorms iev norms xs bns,
    Z.of_nat (q_cap q) = available true 2 10 (Z.of_nat (q_basisSize q))
                            (q_numEvals q) (q_numConverged q) (q_numLocked q) /\
    length flags = q_basisSize q /\ length bnorms = q_basisSize q /\
    bns = 2 /\ firstn bns iev = [0; 1] /\
    2 <= length norms /\ 2 <= length xs /\
    forall verdict resid side floor,
      prepare_candidates q verdict resid (fun p : nat => p) side floor flags bnorms iev norms xs bns
        = (None : option (@sel Z nat)).
Proof.
  exists {| q_basisSize := 3; q_cap := 1; q_numEvals := 4%Z; q_numLocked := 0%Z;
            q_numConverged := 0%Z; q_remained := 1%Z; q_target := closest_abs |},
    [UNCONVERGED; UNCONVERGED; UNCONVERGED], [0; 0; 0]%Z, [0; 1], [1; 1]%Z, [0; 1], 2.
  repeat split; simpl; auto.
Qed.
Print Assumptions C24_block_buffer_refuted.


(** "Don't trust residual norm smaller than the error in the residual norm"
    (main_iter.c 1685-1689) is applied to positions *blockSize up to
    blockNormsSize, not up to *blockSize + blockNormsSize: a residual computed
    in a later round keeps a norm below the error. *)
Theorem C24_norm_floor_refuted :
  exists q s',
    handed_over q (fun p => p) [UNCONVERGED; UNCONVERGED; UNCONVERGED] [0; 0; 0]%Z
      [0; 0] [0; 0]%Z [0; 0] 0 /\
    let floor n := Z.max n 5 in
    let verdict (r p : nat) (f : flag) (n : Z) := ((if Nat.eqb p 1 then CONVERGED else UNCONVERGED), n) in
    prepare_candidates q verdict (fun _ _ => 1%Z) (fun p => p) (fun _ _ => false) floor
      [UNCONVERGED; UNCONVERGED; UNCONVERGED] [0; 0; 0]%Z [0; 0] [0; 0]%Z [0; 0] 0 = Some s' /\
    chosen s' = [0; 2] /\ firstn 2 (s_norms s') = [5; 1]%Z.
Proof.
  exists {| q_basisSize := 3; q_cap := 2; q_numEvals := 3%Z; q_numLocked := 0%Z;
            q_numConverged := 0%Z; q_remained := 3%Z; q_target := smallest |}.
  exists (mkSel [UNCONVERGED; CONVERGED; UNCONVERGED] [5; 5; 1]%Z [0; 2] [5; 1]%Z [0; 2] 2 1 2 3).
  split; [|vm_compute; auto].
  constructor; simpl; auto; try lia; try (repeat constructor).
  intros [|j] p E; discriminate.
Qed.
Print Assumptions C24_norm_floor_refuted.
