(** C24: one pair per shift when the factorisation of the shifted matrix is kept. *)
From Verif Require Import Base Values PermModel SelectModel SelectProofs PropsSelect MainModel.
From Coq Require Import List Arith ZArith Bool Lia Sorted.
Import ListNotations.

(** The user's rule: pair [i] is sought near shift [i], or near the last one when there
    are fewer (documentation of targetShifts). *)
Definition shift_of (nshifts i : nat) : nat := Nat.min (nshifts - 1) i.

(** The limit of one pair per step is in force exactly when the factorisation is kept and
    the next two pairs have different shifts; when it is not, all the pairs still to come
    have the same shift. *)
Theorem C24_shift_limit_when : forall p s,
  (1 <= p_nshifts p) ->
  (by_shift p s = true <->
     p_qr p = true /\ shift_of (p_nshifts p) (nc s) <> shift_of (p_nshifts p) (nc s + 1)) /\
  (p_qr p = true -> by_shift p s = false -> forall i, nc s <= i ->
     shift_of (p_nshifts p) i = shift_of (p_nshifts p) (nc s)).
Proof.
  intros p s H1. unfold by_shift, shift_of. split.
  - rewrite andb_true_iff, Nat.ltb_lt. intuition lia.
  - intros Q B i Hi. rewrite Q in B. cbn [andb] in B. apply Nat.ltb_ge in B. lia.
Qed.
Print Assumptions C24_shift_limit_when.

(** When all the converged pairs are locked, a step in which the limit is in force accepts
    at most one pair and expands by at most one, so that no pair is accepted under the
    shift of another. *)
Theorem C24_one_per_shift : forall N X (q : sel_in) verdict resid (vec : nat -> X) side floor
    flags (bnorms : list N) iev norms xs bns s' maxBlockSize maxBasisSize,
  handed_over q vec flags bnorms iev norms xs bns ->
  q_numConverged q = q_numLocked q ->
  q_remained q = SelectModel.max_recent true (q_numEvals q) (q_numConverged q) (q_numLocked q) ->
  Z.of_nat (q_cap q) = available true maxBlockSize maxBasisSize
      (Z.of_nat (q_basisSize q)) (q_numEvals q) (q_numConverged q) (q_numLocked q) ->
  prepare_candidates q verdict resid vec side floor flags bnorms iev norms xs bns = Some s' ->
  (0 <= s_rc s' <= 1)%Z /\ length (chosen s') <= 1.
Proof.
  intros N X q verdict resid vec side floor flags bnorms iev norms xs bns s' mb mB H Hl Hr Hc E.
  destruct (C24_selection q verdict resid vec side floor flags bnorms iev norms xs bns H)
    as (s2 & E2 & L & Lc & _ & _ & Rc & _).
  rewrite E in E2. injection E2 as <-.
  unfold available, SelectModel.max_recent in *. rewrite Hl in *. lia.
Qed.
Print Assumptions C24_one_per_shift.

(** With locking: the next pair converges, and the one after it, sought with another shift,
    is left for the next step. *)
Definition q_two (locked : Z) : sel_in :=
  {| q_basisSize := 4; q_cap := 1; q_numEvals := 5%Z; q_numLocked := locked;
     q_numConverged := 1%Z; q_remained := SelectModel.max_recent true 5 1 locked;
     q_target := closest_abs |}.
Definition all_converge (r p : nat) (f : flag) (n : Z) : flag * Z := (CONVERGED, n).
Example C24_one_per_shift_witness :
  handed_over (q_two 1) (fun p => p) [UNCONVERGED; UNCONVERGED; UNCONVERGED; UNCONVERGED] [0; 0; 0; 0]%Z
    [0] [1]%Z [0] 1 /\
  Z.of_nat (q_cap (q_two 1)) = available true 2 10 4 5 1 1 /\
  match prepare_candidates (q_two 1) all_converge (fun _ _ => 1%Z) (fun p => p) (fun _ _ => false) (fun n => n)
    [UNCONVERGED; UNCONVERGED; UNCONVERGED; UNCONVERGED] [0; 0; 0; 0]%Z [0] [1]%Z [0] 1 with
  | Some s => s_rc s = 1%Z /\ s_flags s = [CONVERGED; UNCONVERGED; UNCONVERGED; UNCONVERGED]
  | None => False
  end.
Proof.
  split; [|vm_compute; auto].
  constructor; simpl; auto; try lia; try (repeat constructor).
  all: try (intros [|[|j]] p E; simpl in E; try discriminate; injection E as <-; reflexivity).
Qed.

(** Without locking the limit is numConverged - numLocked + 1 (main_iter.c 529), although
    the pairs that converged before are not counted again: with one pair found, two more
    are accepted in one step, both under the shift of the first of them, although the
    second has a shift of its own. *)
Theorem C24_one_per_shift_refuted :
  exists p s (q : sel_in) s',
    (* the user gave three shifts, the factorisation is kept, one pair is found, none locked *)
    p_qr p = true /\ p_nshifts p = 3 /\ nc s = 1 /\ nl s = 0 /\ by_shift p s = true /\
    q_numConverged q = Z.of_nat (nc s) /\ q_numLocked q = Z.of_nat (nl s) /\
    q_remained q = SelectModel.max_recent (by_shift p s) (q_numEvals q) (Z.of_nat (nc s)) (Z.of_nat (nl s)) /\
    Z.of_nat (q_cap q) = available (by_shift p s) 2 10 (Z.of_nat (q_basisSize q))
      (q_numEvals q) (q_numConverged q) (q_numLocked q) /\
    handed_over q (fun p => p) [CONVERGED; UNCONVERGED; UNCONVERGED; UNCONVERGED] [1; 0; 0; 0]%Z
      [1] [1]%Z [1] 1 /\
    prepare_candidates q all_converge (fun _ _ => 1%Z) (fun p => p) (fun _ _ => false) (fun n => n)
      [CONVERGED; UNCONVERGED; UNCONVERGED; UNCONVERGED] [1; 0; 0; 0]%Z [1] [1]%Z [1] 1 = Some s' /\
    s_flags s' = [CONVERGED; CONVERGED; CONVERGED; UNCONVERGED] /\
    shift_of 3 2 <> shift_of 3 1.
Proof.
  exists (Build_params false 100 0 5 10 2 3 20 0 true 3 false false false false 0),
    (St PBasis 0 0 1 0 4 0 false false false false 0 0 0 0 0%Z), (q_two 0),
    (mkSel [CONVERGED; CONVERGED; CONVERGED; UNCONVERGED] [1; 1; 1; 0]%Z [3] [1]%Z [2] 0 2 1 3).
  do 9 (split; [reflexivity|]). split; [|split; [vm_compute; reflexivity|split; [reflexivity|discriminate]]].
  constructor; simpl; auto; try lia; try (repeat constructor).
  all: try (intros [|[|j]] p E; simpl in E; try discriminate; injection E as <-; reflexivity).
Qed.
Print Assumptions C24_one_per_shift_refuted.

(** How many pairs a step may take: no more than the block size and the room in the basis,
    and one more than the number of pairs still to be found, or one when the limit per
    shift is in force; and nothing less.  The number of pairs that may be accepted is what
    is still to be found, or, under the limit, one besides those found and not yet locked. *)
Theorem C24_capacity : forall p s, nl s <= nc s -> nc s <= p_numEvals p -> bsz s < p_maxBasis p ->
  Z.of_nat (avail p s) = available (by_shift p s) (Z.of_nat (p_maxBlock p)) (Z.of_nat (p_maxBasis p))
     (Z.of_nat (bsz s)) (Z.of_nat (p_numEvals p)) (Z.of_nat (nc s)) (Z.of_nat (nl s)) /\
  Z.of_nat (MainModel.max_recent p s) = SelectModel.max_recent (by_shift p s) (Z.of_nat (p_numEvals p))
     (Z.of_nat (nc s)) (Z.of_nat (nl s)) /\
  (by_shift p s = true -> avail p s = 1 /\ MainModel.max_recent p s = nc s - nl s + 1) /\
  (by_shift p s = false ->
     MainModel.max_recent p s = p_numEvals p - nc s /\
     forall k, k <= avail p s <->
       k <= p_maxBlock p /\ bsz s + k <= p_maxBasis p /\ nc s + k <= p_numEvals p + 1).
Proof.
  intros p s H1 H2 H3. unfold avail, available, MainModel.max_recent, SelectModel.max_recent.
  destruct (by_shift p s).
  - split; [lia|]. split; [lia|]. split; [|discriminate]. intros _. lia.
  - split; [lia|]. split; [lia|]. split; [discriminate|]. intros _. split; [reflexivity|]. intros k. lia.
Qed.
Print Assumptions C24_capacity.

Example C24_capacity_witness : exists p s,
  nl s <= nc s /\ nc s <= p_numEvals p /\ bsz s < p_maxBasis p /\ by_shift p s = false /\ avail p s = 2.
Proof.
  exists {| p_locking := true; p_maxMatvecs := 50; p_maxOuter := 0; p_numEvals := 5; p_maxBasis := 9;
     p_maxBlock := 3; p_minRestart := 1; p_n := 100; p_noc := 0; p_qr := true; p_nshifts := 2;
     p_late := false; p_lockNow := false; p_inner := false; p_B := false; p_ortho := 0 |},
   (St PBasis 0 0 4 2 3 0 false false false false 0 0 0 0 0%Z).
  cbn [nl nc bsz p_numEvals p_maxBasis]. split; [lia|]. split; [lia|]. split; [lia|]. split; reflexivity.
Qed.
