(** C52: cases, and the histories in which what is returned or kept is wrong. *)
From Coq Require Import List Arith ZArith Bool Lia QArith Qcanon.
From Verif Require Import Base ProjModel SpecProj MatAlg ExtractModel SpecExtract PropsExtract PropsExtract2
  ReprojModel SpecReproj PropsReproj StepModel SpecStep PropsStep PropsStep2.
From Verif Require Values SelectModel RestartModel PropsRestart PropsStep3.
Import ListNotations.
Local Open Scope nat_scope.
Local Notation mx := (@mx Qc).

(** ** Kernels that answer when they can check the answer *)
Definition meqb (m n : nat) (A B : mx) : bool :=
  forallb (fun i => forallb (fun j => Qc_eq_bool (A i j) (B i j)) (seq 0 n)) (seq 0 m).
Lemma meqb_ok m n A B : meqb m n A B = true -> meq m n A B.
Proof.
  intros H i j Hi Hj. unfold meqb in H. rewrite forallb_forall in H.
  assert (Hi' : In i (seq 0 m)) by (apply in_seq; lia). specialize (H i Hi'). rewrite forallb_forall in H.
  apply Qc_eq_bool_correct. apply H. apply in_seq. lia.
Qed.

(** Diagonal matrices, and those of order two that xE makes diagonal.  [sw]: the values
    of a problem of order two are wanted in the opposite order. *)
Definition gK (sw : bool) : kernels Qc := Kernels
  (fun n A B => match B with
     | Some _ => None
     | None => if meqb n n A (diag Qs (fun i => A i i)) then Some ((fun i => A i i), one Qs) else hegv xK n A None
     end)
  (gesvd xK) (potrf xK) (lsolve xK) (rsolve xK) (bortho xK)
  (fun _ n _ i => if sw && (n =? 2) then 1 - i else i).
Lemma gK_right sw : kernels_right Qs (gK sw).
Proof.
  intros m. split.
  - intros A B w X HA H. cbn [hegv gK] in H. destruct B as [B|]; [discriminate|].
    destruct (meqb m m A (diag Qs (fun i => A i i))) eqn:E; [|exact (xK_hegv m A None w X HA H)].
    injection H as <- <-. apply meqb_ok in E. cbn [opt]. split.
    + rewrite (mul_1_l Qs Qs_laws). rewrite (mul_1_l Qs Qs_laws). rewrite (mul_1_r Qs Qs_laws). exact E.
    + unfold orthonormal_in, form. rewrite (mul_1_l Qs Qs_laws). rewrite (adj1 Qs Qs_laws). rewrite (mul_1_l Qs Qs_laws). reflexivity.
  - intros t w. cbn [order gK]. split.
    + intros i Hi. destruct sw; cbn [andb]; [|exact Hi]. destruct (Nat.eqb_spec m 2); lia.
    + intros i j Hi Hj. destruct sw; cbn [andb]; [|auto]. destruct (Nat.eqb_spec m 2); lia.
Qed.

Definition gB (N : nat) (B : mx) : block_ortho Qc := fun V BV b1 b2 E m =>
  if (b1 <=? b2) && meqb b2 b2 (form Qs N V B V) (one Qs) && meqb m b2 (form Qs N E B V) (fun _ _ => q 0)
  then Some (V, (fun r j => if (b1 <=? j) && (j <? b2) then mul Qs N B V r j else BV r j), b2) else None.
Lemma gB_right N B : block_right Qs N B (gB N B).
Proof.
  intros V BV b1 b2 E m V' BV' b H. unfold gB in H.
  destruct (b1 <=? b2) eqn:C1; [|discriminate]. destruct (meqb b2 b2 _ _) eqn:C2; [|discriminate].
  destruct (meqb m b2 _ _) eqn:C3; [|discriminate]. injection H as <- <- <-.
  apply Nat.leb_le in C1. apply meqb_ok in C2, C3.
  split; [lia|]. split; [|split].
  - intros r j Hj. replace (b1 <=? j) with false by (symmetry; apply Nat.leb_gt; exact Hj). auto.
  - intros r j Hr Hj. replace ((b1 <=? j) && (j <? b2)) with true by (symmetry; apply in_range; exact Hj). reflexivity.
  - intros _ _ _. split; [exact C2|]. intros i j Hi Hj. exact (C3 i j Hi Hj).
Qed.

Definition gV : vec_ortho Qc := fun n X b v =>
  let c : mx := fun r _ => v r in
  if meqb 1 1 (mul Qs n (adj Qs c) c) (one Qs) && meqb b 1 (mul Qs n (adj Qs X) c) (fun _ _ => q 0)
  then Some (v, q 1) else None.
Lemma gV_right : vec_right Qs gV.
Proof.
  intros n X b v v' rr H _. unfold gV in H. destruct (meqb 1 1 _ _) eqn:C1; [|discriminate].
  destruct (meqb b 1 _ _) eqn:C2; [|discriminate]. injection H as <- <-. apply meqb_ok in C1, C2. split.
  - exact (C1 0 0 Nat.lt_0_1 Nat.lt_0_1).
  - intros j Hj. exact (C2 j 0 Hj Nat.lt_0_1).
Qed.

Definition unit_cols (l : list nat) : mx := fun r j => if r =? nth j l 0 then q 1 else q 0.
Definition empty (E : mx) : state Qc :=
  State 0 (fun _ _ => q 0) (fun _ _ => q 0) (fun _ _ => q 0) (fun _ _ => q 0) (fun _ _ => q 0) (fun _ => q 0) 0 E (fun _ => q 0) (fun _ => q 0).
Definition from_some {T} (d : T) (x : option T) : T := match x with Some y => y | None => d end.
Lemma from_some_eq {T} (d : T) x : match x with Some _ => true | None => false end = true -> x = Some (from_some d x).
Proof. destruct x; [reflexivity|discriminate]. Qed.

(** ** A pair that is locked with a residual: A of order four, the constraint e4, the
    basis e1, e2. *)
Definition eA := tab [[16;12;1;0];[12;9;0;0];[1;0;5;0];[0;0;0;7]]%Z.
Lemma lt4 i : i < 4 -> i = 0 \/ i = 1 \/ i = 2 \/ i = 3. Proof. lia. Qed.
Lemma herm_check N A : meqb N N (adj Qs A) A = true -> hermitian Qs N A.
Proof. intros H. apply meqb_ok in H. exact H. Qed.

Definition e0 := empty (unit_cols [3]).
Definition e1 := from_some e0 (grow Qs (gK false) 4 eA 1 (gB 4 (one Qs)) Smallest e0 0 2 (unit_cols [0; 1])).
Definition e2 := from_some e0 (restart_lock Qs (gK false) 4 1 Smallest false e1 (sX e1) 1 0 1 (fun _ => true) (fun i => i) (fun i => i)).
Lemma e0_start : start Qs 4 (one Qs) 1 e0.
Proof. split; [reflexivity|]. split; [reflexivity|]. apply meqb_ok. vm_compute. reflexivity. Qed.
Lemma e1_step : step Qs 4 eA (one Qs) 1 e0 e1.
Proof.
  apply (step_expand Qs 4 eA (one Qs) 1 (gK false) (gB 4 (one Qs)) Smallest e0 2 (unit_cols [0; 1]) e1 (gK_right false) (gB_right 4 (one Qs))).
  apply (from_some_eq e0). vm_compute. reflexivity.
Qed.
Lemma e2_step : step Qs 4 eA (one Qs) 1 e1 e2.
Proof.
  apply (step_lock Qs 4 eA (one Qs) 1 (gK false) gV Smallest false e1 2 0 (sX e1) 1 1 (fun _ => true) (fun i => i) (fun i => i) e2 (gK_right false) gV_right).
  - exists (fun _ => false), (fun _ _ => false), (one Qs), 0, 0. reflexivity.
  - change (sn e1) with 2. repeat split; try lia; cbn; unfold kept; lia.
  - cbn. split; [split; intros; lia|]. exists 0. split; [lia|]. intros t Ht. lia.
  - apply (from_some_eq e0). vm_compute. reflexivity.
Qed.
Example C52_case_locked : reached Qs 4 eA (one Qs) 1 e2 /\ slk e2 = 1 /\ this (sval e2 0) = 25%Q /\ this (sres e2 0) = (16 # 25)%Q /\
  orthonormal_in Qs 4 2 (one Qs) (sE e2) /\
  pair_right Qs 4 eA (one Qs) (sE e2) 1 (sval e2 0) (sres e2 0).
Proof.
  assert (R : reached Qs 4 eA (one Qs) 1 e2).
  { exists e0. split; [exact e0_start|]. eapply steps_more; [|exact e2_step]. eapply steps_more; [|exact e1_step]. apply steps_none. }
  split; [exact R|]. split; [reflexivity|]. split; [vm_compute; reflexivity|]. split; [vm_compute; reflexivity|].
  destruct (C52_locked Qs Qs_laws 4 eA (one Qs) 1) with (s := e2) as [F1 F2];
    [apply herm_check; vm_compute; reflexivity|apply herm_check; vm_compute; reflexivity|exact R|].
  split; [exact F1|]. apply F2. replace (slk e2) with 1 by (vm_compute; reflexivity). lia.
Qed.

(** ** A restart that keeps two pairs, one of them marked, and one previous vector: the diagonal matrix of
    order five, the basis e1 .. e4. *)
Definition dA : mx := diag Qs (fun i => q (Z.of_nat i + 1)).
Definition d0 := empty (fun _ _ => q 0).
Definition d1 := from_some d0 (grow Qs (gK false) 5 dA 0 (gB 5 (one Qs)) Smallest d0 0 4 (one Qs)).
Lemma d1_reached : reached Qs 5 dA (one Qs) 0 d1.
Proof.
  exists d0. split.
  - split; [reflexivity|]. split; [reflexivity|]. intros i j Hi Hj. lia.
  - eapply steps_more; [apply steps_none|].
    apply (step_expand Qs 5 dA (one Qs) 0 (gK false) (gB 5 (one Qs)) Smallest d0 4 (one Qs) d1 (gK_right false) (gB_right 5 (one Qs))).
    apply (from_some_eq d0). vm_compute. reflexivity.
Qed.
Lemma dA_herm : hermitian Qs 5 dA. Proof. apply herm_check. vm_compute. reflexivity. Qed.
Lemma one_herm : hermitian Qs 5 (one Qs). Proof. apply herm_check. vm_compute. reflexivity. Qed.

(** The second pair is marked: restart_soft_locking moves it to the front. *)
Definition dflags := [Values.UNCONVERGED; Values.CONVERGED; Values.UNCONVERGED; Values.UNCONVERGED].
Definition dperm : nat -> nat := fun i => nth i [1; 0; 2; 3] 0.
Definition dX : mx := fun r j => if j =? 2 then unit_cols [3] r 0 else sX d1 r j.
Definition d2 := from_some d0 (restart_soft Qs (gK false) Smallest false d1 dX 2 1 dperm dperm).
Lemma d2_retains : retains gV d1 2 1 dX.
Proof.
  exists (fun _ => false), (fun _ _ => false), (unit_cols [3]), 1, 1. vm_compute. reflexivity.
Qed.
Lemma d2_perm : RestartModel.soft_perm dflags 1 4 0 0 0 [0; 0; 0; 0] = Some [1; 0; 2; 3] /\
  RestartModel.invert_loop [1; 0; 2; 3] 4 0 [0; 0; 0; 0] = Some [1; 0; 2; 3].
Proof. split; reflexivity. Qed.
Lemma d1_size : sn d1 = 4. Proof. vm_compute. reflexivity. Qed.
Lemma d2_selects : selects (sn d1) 3 2 1 2 dperm /\ permutes 3 dperm /\ together 2 1 3 dperm.
Proof.
  rewrite d1_size.
  assert (T : forall p, 4 <= p < 2 -> nth_error dflags p = Some Values.UNCONVERGED) by (intros; lia).
  assert (L4 : 4 <= 4) by lia. assert (L2 : 2 <= 4) by lia. assert (L1 : Nat.min 2 4 <= 2) by (cbn; lia).
  assert (L3 : 1 <= 2) by lia. assert (L5 : 2 + 1 <= 4) by lia.
  destruct d2_perm as [P1 P2].
  destruct (PropsStep3.C52_soft_permutations dflags (fun _ => false) 2 4 [0; 0; 0; 0] [0; 0; 0; 0] dflags 1 [1; 0; 2; 3] [1; 0; 2; 3] 2 1
    L4 L2 T L4 L4 eq_refl P1 P2 L1 L3 L5) as (F1 & F2 & F3 & _).
  split; [exact F1|]. split; [exact F2|exact F3].
Qed.
Lemma d2_eq : restart_soft Qs (gK false) Smallest false d1 dX 2 1 dperm dperm = Some d2.
Proof. apply (from_some_eq d0). vm_compute. reflexivity. Qed.
Example C52_case_returned :
  let '(Y, w, res) := returned Qs 5 (finish_soft dperm d2) in
  pair_right Qs 5 dA (one Qs) Y 1 (w 1) (res 1) /\ this (w 1) = 2%Q /\ this (Y 1 1) = 1%Q.
Proof.
  destruct d2_selects as (S1 & S2 & S3).
  assert (F := C52_returned_pairs Qs Qs_laws 5 dA (one Qs) 0 dA_herm one_herm d1 (gK false) gV Smallest 2 1 dX 2 dperm dperm d2
    d1_reached (gK_right false) gV_right d2_retains S1 S2 S3 d2_eq).
  assert (G1 : this (snd (fst (returned Qs 5 (finish_soft dperm d2))) 1) = 2%Q) by (vm_compute; reflexivity).
  assert (G2 : this (fst (fst (returned Qs 5 (finish_soft dperm d2))) 1 1) = 1%Q) by (vm_compute; reflexivity).
  destruct (returned Qs 5 (finish_soft dperm d2)) as [[Y w] res].
  destruct (F 1) as (P & _); [lia|left; cbn; lia|]. split; [exact P|].
  split; assumption.
Qed.

(** ** When the vectors are not put back in order.

    If the limit of products is reached while some pairs have not converged, the
    vectors are left in the order of restartPerm (restart.c 385 asks for all to
    have converged), and the values in that of hVecsPerm (restart_RR): what
    main_iter copies (1286-1295) pairs the value of one with the vector of another. *)
Theorem C52_returned_pairs_limit_refuted :
  exists s s' perm hperm, reached Qs 5 dA (one Qs) 0 s /\ reached Qs 5 dA (one Qs) 0 s' /\
    (exists X, retains gV s 2 1 X /\ selects (sn s) 3 2 1 2 perm /\ permutes 3 hperm /\ together 2 1 3 hperm /\
       restart_soft Qs (gK false) Smallest false s X 2 1 perm hperm = Some s') /\
    let '(Y, w, res) := returned Qs 5 s' in
    this (w 0) = 1%Q /\ this (form Qs 5 Y dA Y 0 0) = 2%Q /\
    ~ pair_right Qs 5 dA (one Qs) Y 0 (w 0) (res 0).
Proof.
  destruct d2_selects as (S1 & S2 & S3).
  assert (R2 : reached Qs 5 dA (one Qs) 0 d2).
  { destruct d1_reached as (s0 & H0 & H1). exists s0. split; [exact H0|]. eapply steps_more; [exact H1|].
    exact (step_soft Qs 5 dA (one Qs) 0 (gK false) gV Smallest false d1 2 1 dX 2 dperm dperm d2 (gK_right false) gV_right d2_retains S1 S2 S3 d2_eq). }
  exists d1, d2, dperm, dperm. split; [exact d1_reached|]. split; [exact R2|]. split.
  { exists dX. split; [exact d2_retains|]. split; [exact S1|]. split; [exact S2|]. split; [exact S3|exact d2_eq]. }
  cbn [returned]. split; [vm_compute; reflexivity|]. split; [vm_compute; reflexivity|].
  intros (_ & H & _). apply (f_equal this) in H. vm_compute in H. discriminate.
Qed.

(** If the shift changes at the last restart, the values come in the order of the
    new shift (solve_H in restart_RR, 1676-1681) and the vectors in that of the
    old one: verify_norms rejects pairs that have converged. *)
Definition c1 := from_some d0 (grow Qs (gK false) 5 dA 0 (gB 5 (one Qs)) ClosestAbs d0 0 2 (one Qs)).
Definition c2 := from_some d0 (restart_soft Qs (gK true) ClosestAbs true c1 (sX c1) 2 0 (fun i => i) (fun i => i)).
Theorem C52_returned_pairs_shift_refuted :
  exists s s', reached Qs 5 dA (one Qs) 0 s /\
    selects (sn s) 2 2 0 2 (fun i => i) /\ permutes 2 (fun i => i) /\ together 2 0 2 (fun i => i) /\
    restart_soft Qs (gK true) ClosestAbs true s (sX s) 2 0 (fun i => i) (fun i => i) = Some s' /\
    (forall j, j < 2 -> let X := mul Qs (sn s) (sV s) (sX s) in this (residual2 Qs 5 dA (one Qs) X j (sth s j)) = 0%Q) /\
    let '(Y, w, res) := returned Qs 5 (finish_soft (fun i => i) s') in
    (forall j, j < 2 -> this (res j) = 1%Q) /\ ~ pair_right Qs 5 dA (one Qs) Y 0 (w 0) (res 0).
Proof.
  exists c1, c2. split.
  { exists d0. split.
    - split; [reflexivity|]. split; [reflexivity|]. intros i j Hi Hj. lia.
    - eapply steps_more; [apply steps_none|].
      apply (step_expand Qs 5 dA (one Qs) 0 (gK false) (gB 5 (one Qs)) ClosestAbs d0 2 (one Qs) c1 (gK_right false) (gB_right 5 (one Qs))).
      apply (from_some_eq d0). vm_compute. reflexivity. }
  split. { change (sn c1) with 2. repeat split; try lia; cbn; unfold kept; lia. }
  split. { split; auto. }
  split. { exists 0. split; [lia|]. intros t Ht. lia. }
  split. { apply (from_some_eq d0). vm_compute. reflexivity. }
  split. { intros j Hj. destruct (lt2 j Hj) as [->| ->]; vm_compute; reflexivity. }
  cbn [returned]. split.
  { intros j Hj. destruct (lt2 j Hj) as [->| ->]; vm_compute; reflexivity. }
  intros (_ & H & _). apply (f_equal this) in H. vm_compute in H. discriminate.
Qed.

(** With locking, a pair marked beyond restartSize plus the number of pairs to lock (a
    block larger than the restart size) is where the previous vectors are put
    (restart.c 308-318).  It is then tested with its vector replaced, fails, and
    stays in the basis with the value of the lost pair: H is no longer the projection. *)
Definition gflags := [Values.UNCONVERGED; Values.UNCONVERGED; Values.CONVERGED; Values.UNCONVERGED].
Definition ga : RestartModel.rst_in :=
  {| RestartModel.r_locking := true; RestartModel.r_basisSize := 4; RestartModel.r_maxBasisSize := 4; RestartModel.r_maxBlockSize := 3;
     RestartModel.r_minRestartSize := 1; RestartModel.r_maxPrevRetain := 1; RestartModel.r_n := 5; RestartModel.r_numOrthoConst := 0;
     RestartModel.r_numEvals := 3; RestartModel.r_numGuesses := 0; RestartModel.r_numConverged := 1; RestartModel.r_numLocked := 0 |}.
Definition g2 := from_some d0 (restart_lock Qs (gK false) 5 0 Smallest false d1 dX 1 1 1 (fun _ => false) (fun i => nth i [0; 1; 2; 3] 0) (fun i => nth i [0; 2; 1] 0)).
Theorem C52_marked_beyond_refuted :
  exists s s' X, reached Qs 5 dA (one Qs) 0 s /\
    PropsRestart.admissible ga /\ RestartModel.restart_sizes ga = (1, 1)%Z /\ RestartModel.prev_index ga 1 = 2%Z /\
    RestartModel.lock_perm gflags 3 0 Values.smallest 2 1 4 0 0 0 [0; 0; 0; 0] = Some ([0; 1; 2; 3], 1) /\
    RestartModel.lock_hVecsPerm [0; 1; 2; 3] (RestartModel.ifailed [Values.UNCONVERGED]) 1 1 1 [0; 0; 0; 0] = Some [0; 2; 1; 0] /\
    retains gV s 2 1 X /\
    restart_lock Qs (gK false) 5 0 Smallest false s X 1 1 1 (fun _ => false)
      (fun i => nth i [0; 1; 2; 3] 0) (fun i => nth i [0; 2; 1] 0) = Some s' /\
    this (sH s' 2 2) = 3%Q /\ this (form Qs 5 (sV s') dA (sV s') 2 2) = 4%Q /\ ~ good Qs 5 dA (one Qs) 0 s'.
Proof.
  exists d1, g2, dX. split; [exact d1_reached|].
  split. { constructor; cbn; lia. }
  split; [reflexivity|]. split; [reflexivity|]. split; [reflexivity|]. split; [reflexivity|]. split; [exact d2_retains|].
  split. { apply (from_some_eq d0). vm_compute. reflexivity. }
  split; [vm_compute; reflexivity|]. split; [vm_compute; reflexivity|].
  intros (_ & _ & _ & _ & _ & H & _). assert (H2 : 2 < sn g2) by (vm_compute; lia). specialize (H 2 2 H2 (le_n 2)).
  apply (f_equal this) in H. vm_compute in H. discriminate.
Qed.

(** The first pair marked: what restart() computes is what the step needs. *)
Definition hflags := [Values.CONVERGED; Values.UNCONVERGED; Values.UNCONVERGED; Values.UNCONVERGED].
Example C52_case_lock_permutations : selects 4 3 1 1 2 (fun i => nth i [1; 2; 0; 3] 0) /\
  exists h', RestartModel.lock_hVecsPerm [1; 2; 0; 3] (RestartModel.ifailed [Values.UNCONVERGED]) 1 1 1 [0; 0; 0; 0] = Some h' /\
    permutes 3 (fun i => nth i h' 0) /\ together 1 1 3 (fun i => nth i h' 0).
Proof.
  assert (Ha : PropsRestart.admissible ga) by (constructor; cbn; lia).
  assert (L0 : 0 <= 3) by lia. assert (L4 : 4 <= 4) by lia.
  assert (B : forall i, 2 <= i < 2 + 1 -> nth i [1; 2; 0; 3] 0 < 2).
  { intros i Hi. assert (i = 2) as -> by lia. cbn. lia. }
  exact (PropsStep3.C52_lock_permutations ga [true] hflags 3 0 Values.smallest [0; 0; 0; 0] [1; 2; 0; 3] [0; 0; 0; 0] [Values.UNCONVERGED]
    Ha eq_refl eq_refl eq_refl eq_refl L0 eq_refl L4 eq_refl B eq_refl L4).
Qed.
