(** C49: for each choice of correctionParams.projectors the correction is
    computed with exactly the documented projected operators. *)
From Coq Require Import List Arith Bool Lia Field.
From Coq Require Import QArith Qcanon.
From Verif Require Import Base ProjModel SpecProj.
Import ListNotations.
Close Scope Q_scope.
Local Open Scope nat_scope.

Section Proofs.
Context {K : Type} (o : scal K) (L : laws o).
Variable solve : nat -> (nat -> nat -> K) -> (nat -> K) -> nat -> K.

Declare Scope k_scope.
Delimit Scope k_scope with k.
Notation "a + b" := (kadd o a b) : k_scope.
Notation "a * b" := (kmul o a b) : k_scope.
Notation "a - b" := (ksub o a b) : k_scope.
Notation "a / b" := (kdiv o a b) : k_scope.
Notation "- a" := (kopp o a) : k_scope.
Notation "0" := (k0 o) : k_scope.
Notation "1" := (k1 o) : k_scope.
Notation sum := (ProjModel.sum o).
Notation dot := (ProjModel.dot o).

Add Field Kfield : (l_field o L).

(* ---------------------------------------------------------------- *)
(** ** Sums and inner products *)

Lemma sum_ext n f g : (forall i, i < n -> f i = g i) -> sum n f = sum n g.
Proof.
  induction n as [|n IH]; intros H; cbn; auto.
  rewrite IH by (intros; apply H; lia). rewrite H by lia. reflexivity.
Qed.

Lemma sum_sub n f g : sum n (fun i => f i - g i)%k = (sum n f - sum n g)%k.
Proof. induction n as [|n IH]; cbn; [ring|]. rewrite IH. ring. Qed.

Lemma sum_add n f g : sum n (fun i => f i + g i)%k = (sum n f + sum n g)%k.
Proof. induction n as [|n IH]; cbn; [ring|]. rewrite IH. ring. Qed.

Lemma sum_mulr n f a : sum n (fun i => f i * a)%k = (sum n f * a)%k.
Proof. induction n as [|n IH]; cbn; [ring|]. rewrite IH. ring. Qed.

Lemma sum_mull n f a : sum n (fun i => a * f i)%k = (a * sum n f)%k.
Proof. induction n as [|n IH]; cbn; [ring|]. rewrite IH. ring. Qed.

Lemma sum_zero n f : (forall i, i < n -> f i = 0%k) -> sum n f = 0%k.
Proof.
  induction n as [|n IH]; intros H; cbn; auto.
  rewrite IH by (intros; apply H; lia). rewrite H by lia. ring.
Qed.

Lemma sum_swap m n f : sum m (fun i => sum n (fun j => f i j)) = sum n (fun j => sum m (fun i => f i j)).
Proof.
  induction m as [|m IH]; cbn.
  - symmetry. apply sum_zero. reflexivity.
  - rewrite IH, <- sum_add. reflexivity.
Qed.

Lemma sum_delta n i f : i < n -> sum n (fun j => (if i =? j then 1 else 0) * f j)%k = f i.
Proof.
  induction n as [|n IH]; intros H; [lia|]. cbn. destruct (Nat.eq_dec i n) as [->|Hne].
  - rewrite sum_zero; [rewrite Nat.eqb_refl; ring|].
    intros j Hj. destruct (n =? j) eqn:E; [apply Nat.eqb_eq in E; lia|ring].
  - rewrite IH by lia. destruct (i =? n) eqn:E; [apply Nat.eqb_eq in E; lia|ring].
Qed.

Lemma total_sum n f : total o n f = sum n f.
Proof.
  unfold total. induction n as [|n IH]; [reflexivity|].
  rewrite seq_S, map_app, fold_right_app. cbn [plus map fold_right ProjModel.sum]. rewrite <- IH.
  generalize (map f (seq 0 n)) as l. induction l as [|a l IHl]; cbn; [ring|].
  rewrite IHl. ring.
Qed.

Lemma inner_dot n x y : inner o n x y = dot n x y.
Proof. unfold inner. rewrite total_sum. reflexivity. Qed.

Lemma dot_ext n x y y' : (forall r, y r = y' r) -> dot n x y = dot n x y'.
Proof. intros H. apply sum_ext. intros. rewrite H. reflexivity. Qed.

Lemma dot_sub n x y z : dot n x (fun r => y r - z r)%k = (dot n x y - dot n x z)%k.
Proof.
  unfold ProjModel.dot. rewrite <- sum_sub. apply sum_ext. intros. ring.
Qed.

Lemma dot_mulr n x y a : dot n x (fun r => y r * a)%k = (dot n x y * a)%k.
Proof. unfold ProjModel.dot. rewrite <- sum_mulr. apply sum_ext. intros. ring. Qed.

Lemma dot_comb n x k (C : nat -> nat -> K) a :
  dot n x (fun r => sum k (fun j => C j r * a j)%k) = sum k (fun j => dot n x (C j) * a j)%k.
Proof.
  unfold ProjModel.dot.
  transitivity (sum n (fun r => sum k (fun j => kconj o (x r) * C j r * a j)%k)).
  { apply sum_ext. intros r _. rewrite <- sum_mull. apply sum_ext. intros. ring. }
  rewrite sum_swap. apply sum_ext. intros j _. rewrite <- sum_mulr. reflexivity.
Qed.

Lemma sum_conj n f : kconj o (sum n f) = sum n (fun i => kconj o (f i)).
Proof.
  induction n as [|n IH]; cbn; [apply (l_conj_0 o L)|]. rewrite (l_conj_add o L), IH. reflexivity.
Qed.

Lemma dot_conj n x y : kconj o (dot n x y) = dot n y x.
Proof.
  unfold ProjModel.dot. rewrite sum_conj. apply sum_ext. intros r _.
  rewrite (l_conj_mul o L), (l_conj_conj o L). ring.
Qed.

Lemma proj_sum n k Q BQ v r : proj o n k Q BQ v r = (v r - sum k (fun j => BQ j r * dot n (Q j) v))%k.
Proof. unfold proj. rewrite total_sum. f_equal. apply sum_ext. intros. rewrite inner_dot. reflexivity. Qed.

Lemma proj1_dot n x Bx v r : proj1 o n x Bx v r = (v r - Bx r * dot n x v)%k.
Proof. unfold proj1. rewrite inner_dot. reflexivity. Qed.

(* ---------------------------------------------------------------- *)
(** ** What the set-up leaves *)

Lemma orelse_if (b : bool) (Q BQ : nat -> nat -> K) :
  orelse (if b then Some BQ else None) Q = if b then BQ else Q.
Proof. destruct b; reflexivity. Qed.

(** The size of Q, and the arrays the callers pass (main_iter.c 334-336). *)
Definition sizeQ (c : choice) (numLocked numConverged : nat) : nat :=
  numOrthoConst c + (if locking c then numLocked else numConverged).
Definition bevecs (c : choice) (BQ : nat -> nat -> K) : option (nat -> nat -> K) :=
  if mass c && locking c then Some BQ else None.

(** B of the problem: the identity without a mass matrix. *)
Definition Bop (c : choice) (B : (nat -> K) -> nat -> K) : (nat -> K) -> nat -> K :=
  fun v => if mass c then B v else v.
Definition same_without_B (c : choice) (k : nat) (Q BQ x Bx : nat -> nat -> K) : Prop :=
  mass c = false -> (forall j, j < k -> BQ j = Q j) /\ (forall j, Bx j = x j).

Theorem C49_setup_fits c n Kinv x Bx Q Bev hat numLocked numConverged blockSize :
  sizeQ c numLocked numConverged < numOrthoConst c + numEvals c ->
  exists s, setup_JD_projectors o c n Kinv x Bx Q Bev hat numLocked numConverged blockSize = Some s.
Proof.
  intros H. unfold setup_JD_projectors. cbv zeta. fold (sizeQ c numLocked numConverged).
  apply Nat.ltb_lt in H. rewrite H. rewrite andb_false_r.
  destruct (_ && mass c); destruct Bev; destruct (rightQ c); destruct (rightX c);
    destruct (precondition c && skewX c); cbv beta iota; eexists; reflexivity.
Qed.

(** Both orders of the left projections are this. *)
Definition both_left n k (Q BQ : nat -> nat -> K) (x Bx w : nat -> K) : nat -> K :=
  fun r => (w r - sum k (fun j => BQ j r * dot n (Q j) w) - Bx r * dot n x w)%k.

Lemma doc_left n k Q BQ x Bx w r :
  (forall j, j < k -> dot n (Q j) Bx = 0%k) ->
  proj o n k Q BQ (proj1 o n x Bx w) r = both_left n k Q BQ x Bx w r.
Proof.
  intros H. rewrite proj_sum, proj1_dot. unfold both_left.
  replace (sum k (fun j => BQ j r * dot n (Q j) (proj1 o n x Bx w))%k)
    with (sum k (fun j => BQ j r * dot n (Q j) w)%k); [ring|].
  apply sum_ext. intros j Hj. f_equal.
  rewrite (dot_ext n (Q j) (proj1 o n x Bx w) (fun r => w r - Bx r * dot n x w)%k) by (intros; apply proj1_dot).
  rewrite dot_sub, dot_mulr, H by assumption. ring.
Qed.

Lemma code_left n k Q BQ x Bx w r :
  (forall j, j < k -> dot n x (BQ j) = 0%k) ->
  let w1 := fun r => (w r - sum k (fun j => BQ j r * dot n (Q j) w))%k in
  (w1 r - Bx r * dot n x w1)%k = both_left n k Q BQ x Bx w r.
Proof.
  intros H w1. unfold both_left, w1. rewrite dot_sub, dot_comb.
  rewrite (sum_zero k (fun j => dot n x (BQ j) * dot n (Q j) w)%k) by (intros j Hj; rewrite H by assumption; ring). ring.
Qed.

Lemma skewp_null n Q Qh k v :
  exists w, apply_skew_projector o solve n Q Qh Null k v = Some w /\
    forall r, w r = (v r - sum k (fun j => Qh j r * dot n (Q j) v))%k.
Proof.
  unfold apply_skew_projector. destruct (k =? 0) eqn:E.
  - apply Nat.eqb_eq in E. subst k. exists v. split; auto. intros. cbn. ring.
  - cbn. eexists; split; [reflexivity|]. reflexivity.
Qed.

(** The operator the inner solver multiplies by is the documented
    P_Q^l P_X^l (A - shift B), for every choice of LeftQ and LeftX, every block
    size and every vector of the block. *)
Theorem C49_left_operator c n Kinv A B shift x Bx Q BQ hat numLocked numConverged blockSize s i v :
  let k := sizeQ c numLocked numConverged in
  (mass c = true -> locking c = true) ->
  same_without_B c k Q BQ x Bx ->
  (leftQ c && leftX c = true -> orthonormal o n k Q BQ (x i) (Bx i)) ->
  i < blockSize ->
  setup_JD_projectors o c n Kinv x Bx Q (bevecs c BQ) hat numLocked numConverged blockSize = Some s ->
  exists w, apply_projected_matrix o solve c n A B s shift i v = Some w /\
    forall r, w r = left_operator o (leftQ c) (leftX c) n k A (Bop c B) (shift i) Q BQ (x i) (Bx i) v r.
Proof.
  intros k Hml HB Hon Hi Hs.
  set (w0 := fun r => (A v r - shift i * Bop c B v r)%k).
  unfold setup_JD_projectors in Hs. cbv zeta in Hs. fold (sizeQ c numLocked numConverged) in Hs. fold k in Hs.
  unfold apply_projected_matrix. cbv zeta.
  change (fun r : nat => (A v r - shift i * (if mass c then B v else v) r)%k) with w0.
  unfold left_operator. cbv zeta. fold w0.
  destruct (leftQ c) eqn:ElQ.
  - destruct (leftX c) eqn:ElX.
    + specialize (Hon eq_refl). destruct Hon as (_ & _ & Hxq & Hqx).
      assert (Hxq' : forall j, j < k -> dot n (x i) (BQ j) = 0%k) by (intros; rewrite <- inner_dot; auto).
      assert (Hqx' : forall j, j < k -> dot n (Q j) (Bx i) = 0%k) by (intros; rewrite <- inner_dot; auto).
      destruct (blockSize <=? 1) eqn:Eb.
      * apply Nat.leb_le in Eb. assert (blockSize = S O) by lia. subst blockSize. assert (i = O) by lia. subst i.
        cbn [andb Nat.eqb negb] in Hs.
        destruct (k <? numOrthoConst c + numEvals c); [cbn [negb] in Hs|discriminate].
        assert (Hse : forall j, j < k -> forall m w, @setcol K m k w j = m j).
        { intros j Hj m w. unfold setcol. destruct (j =? k) eqn:E; auto. apply Nat.eqb_eq in E. lia. }
        assert (Hse' : forall (m : nat -> nat -> K) w, setcol m k w k = w).
        { intros m w. unfold setcol. rewrite Nat.eqb_refl. reflexivity. }
        assert (Hfin : s_evecs s = setcol Q k (x O) /\
                 orelse (s_Bevecs s) (s_evecs s) = setcol (if mass c then BQ else Q) k (if mass c then Bx O else x O) /\
                 n_lq s = k + 1 /\ n_lx s = O).
        { unfold bevecs in Hs. destruct (mass c) eqn:Em.
          - rewrite (Hml eq_refl) in Hs. cbn [andb] in Hs.
            destruct (rightQ c); destruct (rightX c); destruct (precondition c && skewX c);
              injection Hs as <-; cbn; auto 10.
          - cbn [andb] in Hs.
            destruct (rightQ c); destruct (rightX c); destruct (precondition c && skewX c);
              injection Hs as <-; cbn; auto 10. }
        destruct Hfin as (He & Hbe & Hnq & Hnx). rewrite Hnq, Hnx, Hbe, He.
        destruct (skewp_null n (setcol Q k (x O)) (setcol (if mass c then BQ else Q) k (if mass c then Bx O else x O)) (k + 1) w0)
          as (w & Hw & Hwr).
        rewrite Hw. cbn [bind Nat.eqb]. exists w. split; auto. intros r.
        rewrite Hwr, doc_left by exact Hqx'.
        unfold both_left. rewrite Nat.add_1_r. cbn [ProjModel.sum]. rewrite !Hse'.
        rewrite (sum_ext k _ (fun j => BQ j r * dot n (Q j) w0)%k).
        { destruct (mass c) eqn:Em; [ring|]. destruct (HB Em) as [_ H]. rewrite H. ring. }
        intros j Hj. rewrite !Hse by assumption.
        destruct (mass c) eqn:Em; auto. destruct (HB Em) as [H _]. rewrite H by assumption. reflexivity.
      * apply Nat.leb_gt in Eb.
        cbn [andb negb] in Hs.
        assert (Hfin : s_evecs s = Q /\ orelse (s_Bevecs s) (s_evecs s) = (if mass c then BQ else Q) /\
                 n_lq s = k /\ n_lx s = blockSize /\ lx s = x /\ lbx s = Bx).
        { unfold bevecs in Hs. destruct (mass c) eqn:Em.
          - rewrite (Hml eq_refl) in Hs. cbn [andb] in Hs.
            destruct (rightQ c); destruct (rightX c); destruct (precondition c && skewX c);
              injection Hs as <-; cbn; auto 10.
          - cbn [andb] in Hs.
            destruct (rightQ c); destruct (rightX c); destruct (precondition c && skewX c);
              injection Hs as <-; cbn; auto 10. }
        destruct Hfin as (He & Hbe & Hnq & Hnx & Hlx & Hlbx). rewrite Hnq, Hnx, Hbe, He, Hlx, Hlbx.
        destruct (skewp_null n Q (if mass c then BQ else Q) k w0) as (w1 & Hw1 & Hw1r).
        rewrite Hw1. cbn [bind]. destruct (blockSize =? 0) eqn:E0; [apply Nat.eqb_eq in E0; lia|].
        destruct (skewp_null n (fun _ => x i) (fun _ => Bx i) 1 w1) as (w & Hw & Hwr).
        exists w. split; auto. intros r. rewrite Hwr, doc_left by exact Hqx'.
        rewrite <- (code_left n k Q BQ (x i) (Bx i) w0 r Hxq'). cbv zeta.
        assert (Heq : forall q, w1 q = (w0 q - sum k (fun j => BQ j q * dot n (Q j) w0))%k).
        { intros q. rewrite Hw1r. f_equal. apply sum_ext. intros j Hj.
          destruct (mass c) eqn:Em; auto. destruct (HB Em) as [H _]. rewrite H by assumption. reflexivity. }
        cbn [ProjModel.sum]. rewrite (dot_ext n (x i) w1 _ Heq), Heq. ring.
    + cbn [andb negb] in Hs.
      assert (Hfin : s_evecs s = Q /\ orelse (s_Bevecs s) (s_evecs s) = (if mass c then BQ else Q) /\
                 n_lq s = k /\ n_lx s = O).
      { unfold bevecs in Hs. destruct (mass c) eqn:Em.
        - rewrite (Hml eq_refl) in Hs. cbn [andb] in Hs.
          destruct (rightQ c); destruct (rightX c); destruct (precondition c && skewX c);
            injection Hs as <-; cbn; auto 10.
        - cbn [andb] in Hs.
          destruct (rightQ c); destruct (rightX c); destruct (precondition c && skewX c);
            injection Hs as <-; cbn; auto 10. }
      destruct Hfin as (He & Hbe & Hnq & Hnx). rewrite Hnq, Hnx, Hbe, He.
      destruct (skewp_null n Q (if mass c then BQ else Q) k w0) as (w1 & Hw1 & Hw1r).
      rewrite Hw1. cbn [bind Nat.eqb]. exists w1. split; auto. intros r. rewrite Hw1r, proj_sum.
      f_equal. apply sum_ext. intros j Hj.
      destruct (mass c) eqn:Em; auto. destruct (HB Em) as [H _]. rewrite H by assumption. reflexivity.
  - assert (Hfin : n_lq s = O /\ n_lx s = (if leftX c then blockSize else O) /\ lx s = x /\ lbx s = Bx).
    { cbn [andb negb] in Hs. rewrite andb_true_r in Hs.
      destruct (bevecs c BQ); destruct (rightQ c); destruct (rightX c); destruct (precondition c && skewX c);
        injection Hs as <-; cbn; auto 10. }
    destruct Hfin as (Hnq & Hnx & Hlx & Hlbx). rewrite Hnq, Hnx, Hlx, Hlbx.
    unfold apply_skew_projector at 1. cbn [Nat.eqb bind].
    destruct (leftX c).
    + destruct (blockSize =? 0) eqn:E0; [apply Nat.eqb_eq in E0; lia|].
      destruct (skewp_null n (fun _ => x i) (fun _ => Bx i) 1 w0) as (w & Hw & Hwr).
      exists w. split; auto. intros r. rewrite Hwr, proj1_dot. cbn [ProjModel.sum]. ring.
    + cbn [Nat.eqb]. eexists. split; [reflexivity|]. reflexivity.
Qed.

(** ... and so every vector it produces is orthogonal to x (LeftX) and to the
    locked vectors and the constraints (LeftQ). *)
Theorem C49_left_orthogonal withQ withX n k A B shift Q BQ x Bx v :
  orthonormal o n k Q BQ x Bx ->
  let w := left_operator o withQ withX n k A B shift Q BQ x Bx v in
  (withQ = true -> forall j, j < k -> inner o n (Q j) w = 0%k) /\
  (withX = true -> inner o n x w = 0%k).
Proof.
  intros (Hqq & Hxx & Hxq & Hqx) w. subst w. unfold left_operator. cbv zeta.
  set (w0 := fun r => (A v r - shift * B v r)%k).
  assert (HX : forall u, dot n x (proj1 o n x Bx u) = 0%k).
  { intros u. rewrite (dot_ext n x (proj1 o n x Bx u) (fun r => u r - Bx r * dot n x u)%k) by (intros; apply proj1_dot).
    rewrite dot_sub, dot_mulr, <- (inner_dot n x Bx), Hxx. ring. }
  assert (HQ : forall u j, j < k -> dot n (Q j) (proj o n k Q BQ u) = 0%k).
  { intros u j Hj.
    rewrite (dot_ext n (Q j) (proj o n k Q BQ u) (fun r => u r - sum k (fun j => BQ j r * dot n (Q j) u))%k) by (intros; apply proj_sum).
    rewrite dot_sub, dot_comb.
    rewrite (sum_ext k _ (fun i => (if j =? i then 1 else 0) * dot n (Q i) u)%k)
      by (intros i Hi; rewrite <- (inner_dot n (Q j) (BQ i)), Hqq by assumption; reflexivity).
    rewrite sum_delta by assumption. ring. }
  split.
  - intros -> j Hj. rewrite inner_dot. apply HQ. assumption.
  - intros ->. rewrite inner_dot. destruct withQ; [|apply HX].
    rewrite (dot_ext n x (proj o n k Q BQ (proj1 o n x Bx w0)) (fun r => proj1 o n x Bx w0 r - sum k (fun j => BQ j r * dot n (Q j) (proj1 o n x Bx w0)))%k)
      by (intros; apply proj_sum).
    rewrite dot_sub, dot_comb, HX.
    rewrite (sum_zero k); [ring|]. intros j Hj. rewrite <- (inner_dot n x (BQ j)), Hxq by assumption. ring.
Qed.

(* ---------------------------------------------------------------- *)
(** ** The right projections *)

(** Mfact holds the factors of Q'KQ: solving with it is solving with Q'KQ. *)
Definition factor_of n k (Q KQ : nat -> nat -> K) (f : factor) : Prop :=
  k = O \/ forall b, exists a, msolve o solve f k b = Some a /\
    forall i, i < k -> total o k (fun j => inner o n (Q i) (KQ j) * a j)%k = b i.

(** The preconditioner of the problem: the identity without one. *)
Definition Kop (c : choice) (Kinv : (nat -> K) -> nat -> K) (v : nat -> K) : nat -> K :=
  if precondition c then Kinv v else v.

(** The preconditioner the inner solver applies is the documented
    P_X^r P_Q^r K^{-1}, with the orthogonal or the skew projections asked for. *)
Theorem C49_right_operator c n Kinv x Bx Q BQ hat f numLocked numConverged blockSize s i v :
  let k := sizeQ c numLocked numConverged in
  let skewedQ := precondition c && skewQ c in
  let skewedX := precondition c && skewX c in
  (mass c = true -> locking c = true) ->
  same_without_B c k Q BQ x Bx ->
  (if rightQ c && skewedQ then factor_of n k Q hat f else f = Null) ->
  (rightX c && skewedX = true -> inner o n (x i) (Kinv (Bx i)) <> 0%k) ->
  i < blockSize ->
  setup_JD_projectors o c n Kinv x Bx Q (bevecs c BQ) hat numLocked numConverged blockSize = Some s ->
  exists u w, apply_projected_preconditioner o solve c n Kinv s f i v = Some w /\
    (if rightQ c then
       if skewedQ then skew o n k Q hat (Kop c Kinv v) u
       else forall r, u r = proj o n k Q BQ (Kop c Kinv v) r
     else u = Kop c Kinv v) /\
    (if rightX c then
       if skewedX then skew1 o n (x i) (Kinv (Bx i)) u w
       else forall r, w r = proj1 o n (x i) (Bx i) u r
     else w = u).
Proof.
  intros k skQ skX Hml HB Hf Hx Hi Hs.
  assert (Hfin : (forall j, j < k -> s_evecs s j = Q j) /\ lx s = x /\
     n_rq s = (if rightQ c then k else O) /\
     (rightQ c = true -> forall j, j < k -> rq s j = if skQ then hat j else BQ j) /\
     n_rx s = (if rightX c then blockSize else O) /\
     (rightX c = true -> forall j, rx s j = if skX then Kinv (Bx j) else Bx j) /\
     (rightX c = true -> forall j, xkbx s j = if skX then dot n (x j) (Kinv (Bx j)) else 1%k)).
  { unfold setup_JD_projectors in Hs. cbv zeta in Hs. fold (sizeQ c numLocked numConverged) in Hs. fold k in Hs.
    set (copied := leftQ c && leftX c && (blockSize <=? 1) && (blockSize =? 1)) in *.
    destruct (copied && negb (k <? numOrthoConst c + numEvals c)); [discriminate|].
    assert (Hse : forall j, j < k -> forall m w, @setcol K m k w j = m j).
    { intros j Hj m w. unfold setcol. destruct (j =? k) eqn:E; auto. apply Nat.eqb_eq in E. lia. }
    match type of Hs with (match ?t with pair _ _ => _ end) = _ => destruct t as [ev2 bev2] eqn:E2 end.
    assert (Hev : forall j, j < k -> ev2 j = Q j /\ orelse bev2 ev2 j = BQ j).
    { intros j Hj. unfold bevecs in E2. destruct (mass c) eqn:Em.
      - rewrite (Hml eq_refl) in E2. cbn [andb] in E2.
        destruct copied; cbn [andb] in E2; injection E2 as <- <-; cbn [orelse]; rewrite ?Hse by assumption; auto.
      - rewrite andb_false_r in E2. cbn [andb] in E2. injection E2 as <- <-. cbn [orelse].
        destruct (HB Em) as [H _]. destruct copied; rewrite ?Hse by assumption; rewrite H by assumption; auto. }
    unfold precond in Hs. fold skQ skX in Hs.
    destruct (rightQ c); destruct (rightX c); destruct skX eqn:EX; injection Hs as <-; cbn [s_evecs lx n_rq rq n_rx rx xkbx];
      repeat split; try discriminate; try reflexivity;
      try (intros; apply Hev; assumption);
      try (intros _ j Hj; destruct skQ; [reflexivity|]; apply Hev; assumption);
      try (intros _ j; unfold skX in EX; destruct (precondition c); [reflexivity|discriminate]). }
  destruct Hfin as (He & Hlx & Hnrq & Hrq & Hnrx & Hrx & Hxk).
  unfold apply_projected_preconditioner. rewrite Hnrq, Hnrx, Hlx.
  change (precond c Kinv v) with (Kop c Kinv v). set (Kv := Kop c Kinv v).
  assert (HQ : exists u, apply_skew_projector o solve n (s_evecs s) (rq s) f (if rightQ c then k else O) Kv = Some u /\
    (if rightQ c then
       if skQ then skew o n k Q hat Kv u else forall r, u r = proj o n k Q BQ Kv r
     else u = Kv)).
  { destruct (rightQ c) eqn:ErQ; [|unfold apply_skew_projector; cbn [Nat.eqb]; eauto].
    specialize (Hrq eq_refl). cbn [andb] in Hf. destruct skQ eqn:EsQ.
    - unfold apply_skew_projector. destruct (k =? 0) eqn:Ek.
      + apply Nat.eqb_eq in Ek. exists Kv. split; auto. exists (fun _ => 0%k). rewrite Ek. split; [lia|].
        intros r. cbn. ring.
      + destruct Hf as [Hk|Hf]; [apply Nat.eqb_neq in Ek; contradiction|].
        destruct (Hf (fun j => dot n (s_evecs s j) Kv)) as (a & Ha & Has). rewrite Ha. cbn [bind].
        eexists. split; [reflexivity|]. exists a. split.
        * intros q Hq. rewrite Has by assumption. rewrite inner_dot, He by assumption. reflexivity.
        * intros r. rewrite total_sum. f_equal. apply sum_ext. intros j Hj. rewrite Hrq by assumption. reflexivity.
    - subst f. destruct (skewp_null n (s_evecs s) (rq s) k Kv) as (u & Hu & Hur). exists u. split; auto.
      intros r. rewrite Hur, proj_sum. f_equal. apply sum_ext. intros j Hj.
      rewrite Hrq, He by assumption. reflexivity. }
  destruct HQ as (u & Hu & Hus). rewrite Hu. cbn [bind]. exists u.
  destruct (rightX c) eqn:ErX.
  - destruct (blockSize =? 0) eqn:E0; [apply Nat.eqb_eq in E0; lia|].
    unfold apply_skew_projector. cbn [Nat.eqb msolve bind]. eexists. split; [reflexivity|]. split; [exact Hus|].
    rewrite (Hrx eq_refl), (Hxk eq_refl). destruct skX.
    + intros r. rewrite !inner_dot. cbn [ProjModel.sum].
      specialize (Hx eq_refl). rewrite inner_dot in Hx. field. exact Hx.
    + intros r. rewrite proj1_dot. cbn [ProjModel.sum]. field. exact (F_1_neq_0 (l_field o L)).
  - cbn [Nat.eqb]. exists u. auto.
Qed.

(** The vectors it produces are orthogonal to x with RightX, and to Q with
    RightQ unless the projection of x is skew. *)
Theorem C49_right_orthogonal n k Q BQ KQ x Bx Kx v u w (rQ sQ rX sX : bool) :
  orthonormal o n k Q BQ x Bx ->
  (sX = true -> inner o n x Kx <> 0%k) ->
  (if rQ then if sQ then skew o n k Q KQ v u else forall r, u r = proj o n k Q BQ v r else u = v) ->
  (if rX then if sX then skew1 o n x Kx u w else forall r, w r = proj1 o n x Bx u r else w = u) ->
  (rX = true -> inner o n x w = 0%k) /\
  (rQ = true -> rX && sX = false -> forall j, j < k -> inner o n (Q j) w = 0%k).
Proof.
  intros (Hqq & Hxx & Hxq & Hqx) Hk Hu Hw. split.
  - intros ->. rewrite inner_dot. destruct sX.
    + rewrite (dot_ext n x w (fun r => u r - Kx r * (dot n x u / dot n x Kx))%k)
        by (intros r; rewrite Hw, !inner_dot; reflexivity).
      specialize (Hk eq_refl). rewrite inner_dot in Hk. rewrite dot_sub, dot_mulr. field. exact Hk.
    + rewrite (dot_ext n x w (fun r => u r - Bx r * dot n x u)%k) by (intros r; rewrite Hw; apply proj1_dot).
      rewrite dot_sub, dot_mulr, <- (inner_dot n x Bx), Hxx. ring.
  - intros -> HrX j Hj. rewrite inner_dot.
    assert (HQu : dot n (Q j) u = 0%k).
    { destruct sQ.
      - destruct Hu as (a & Ha & Hur).
        rewrite (dot_ext n (Q j) u (fun r => v r - sum k (fun i => KQ i r * a i))%k)
          by (intros r; rewrite Hur, total_sum; reflexivity).
        rewrite dot_sub, dot_comb.
        specialize (Ha j Hj). rewrite total_sum, inner_dot in Ha. rewrite <- Ha.
        rewrite (sum_ext k (fun i => dot n (Q j) (KQ i) * a i)%k (fun i => inner o n (Q j) (KQ i) * a i)%k) by (intros; rewrite inner_dot; reflexivity).
        ring.
      - rewrite (dot_ext n (Q j) u (fun r => v r - sum k (fun i => BQ i r * dot n (Q i) v))%k)
          by (intros r; rewrite Hu; apply proj_sum).
        rewrite dot_sub, dot_comb.
        rewrite (sum_ext k _ (fun i => (if j =? i then 1 else 0) * dot n (Q i) v)%k)
          by (intros i Hi'; rewrite <- (inner_dot n (Q j) (BQ i)), Hqq by assumption; reflexivity).
        rewrite sum_delta by assumption. ring. }
    destruct rX; [|subst w; exact HQu]. cbn [andb] in HrX. subst sX.
    rewrite (dot_ext n (Q j) w (fun r => u r - Bx r * dot n x u)%k) by (intros r; rewrite Hw; apply proj1_dot).
    rewrite dot_sub, dot_mulr, HQu, <- (inner_dot n (Q j) Bx), Hqx by assumption. ring.
Qed.

(* ---------------------------------------------------------------- *)
(** ** The factors of Q'K^{-1}BQ *)

(** Keeping M and its factors up to date, given room for the factors: if M was
    right for the first columns, the new factors are those of X'KX.  LAPACK is
    assumed to solve the systems with that matrix, and without a mass matrix the
    preconditioner is assumed Hermitian (only a triangle is stored). *)
Theorem C49_update_factors c n Kinv X KX M numCols blockSize f ld M' f' :
  let m := (numCols + blockSize)%nat in
  (forall i j, i < numCols -> j < numCols -> M i j = inner o n (X i) (KX j)) ->
  (mass c = false -> (forall u v, inner o n u (Kinv v) = inner o n (Kinv u) v) /\ forall j, j < m -> KX j = Kinv (X j)) ->
  (m = S O -> inner o n (X 0) (KX 0) <> 0%k) ->
  (forall A, (forall i j, i < m -> j < m -> A i j = inner o n (X i) (KX j)) ->
     forall b i, i < m -> total o m (fun j => A i j * solve m A b j)%k = b i) ->
  update_XKinvBX o c n X KX M numCols blockSize f ld = Some (M', f') ->
  factor_of n m X KX f' /\
  forall i j, i < m -> j < m -> (mass c = true \/ i <= j) -> M' i j = inner o n (X i) (KX j).
Proof.
  intros m HM Hsa Hne Hla Hup. unfold update_XKinvBX in Hup. cbv zeta in Hup. fold m in Hup.
  set (M1 := update_projection o n X KX M numCols blockSize (negb (mass c))) in *.
  assert (HM1 : forall i j, i < m -> j < m -> (mass c = true \/ i <= j) -> M1 i j = inner o n (X i) (KX j)).
  { intros i j Hi Hj Hor. unfold M1, update_projection. destruct (blockSize =? 0) eqn:Eb.
    - apply Nat.eqb_eq in Eb. apply HM; unfold m in *; lia.
    - cbv zeta. fold m. rewrite !inner_dot.
      destruct (numCols <=? j) eqn:E1; cbn [andb].
      + apply Nat.ltb_lt in Hi, Hj. rewrite Hi, Hj. cbn. reflexivity.
      + apply Nat.leb_gt in E1. rewrite negb_involutive.
        destruct (numCols <=? i) eqn:E2; cbn [andb].
        * apply Nat.leb_le in E2. destruct Hor as [Hm|]; [|lia]. rewrite Hm.
          apply Nat.ltb_lt in Hi, E1. rewrite Hi, E1. cbn. reflexivity.
        * rewrite andb_false_r. cbn [andb]. apply Nat.leb_gt in E2. rewrite HM, inner_dot by assumption. reflexivity. }
  assert (HM1' : M' = M1).
  { destruct (m =? 0); [congruence|]. destruct (m =? 1); [congruence|].
    destruct (ld <? m); [discriminate|]. destruct (mass c); congruence. }
  subst M'. split; [|exact HM1].
  unfold factor_of. destruct (m =? 0) eqn:E0; [left; apply Nat.eqb_eq in E0; assumption|]. right. intros b.
  destruct (m =? 1) eqn:E1.
  - apply Nat.eqb_eq in E1. injection Hup as <-. cbn [msolve]. rewrite E1. cbn [Nat.eqb].
    eexists. split; [reflexivity|]. intros i Hi. assert (i = O) by lia. subst i.
    rewrite total_sum. cbn [ProjModel.sum]. rewrite HM1 by (rewrite ?E1; lia). field. apply Hne; assumption.
  - apply Nat.eqb_neq in E0, E1. destruct (ld <? m); [discriminate|].
    assert (H2 : (2 <=? m) = true) by (apply Nat.leb_le; lia).
    destruct (mass c) eqn:Em; injection Hup as <-; cbn [msolve]; rewrite H2, Nat.eqb_refl; cbn [andb];
      eexists; (split; [reflexivity|]); intros i Hi.
    + rewrite <- (Hla M1 (fun i j Hi Hj => HM1 i j Hi Hj (or_introl eq_refl)) b i Hi) at 1.
      rewrite !total_sum. apply sum_ext. intros j Hj. rewrite HM1 by auto. reflexivity.
    + destruct (Hsa eq_refl) as [Hadj HKX].
      assert (Hup : forall i j, i < m -> j < m -> upper o M1 i j = inner o n (X i) (KX j)).
      { intros p q Hp Hq. unfold upper. destruct (p <=? q) eqn:Epq.
        - apply Nat.leb_le in Epq. apply HM1; auto.
        - apply Nat.leb_gt in Epq. rewrite HM1 by (auto; right; lia).
          rewrite inner_dot, dot_conj, <- inner_dot, (HKX p Hp), (HKX q Hq). symmetry. apply Hadj. }
      rewrite <- (Hla _ Hup b i Hi) at 1.
      rewrite !total_sum. apply sum_ext. intros j Hj. rewrite Hup by assumption. reflexivity.
Qed.

(** One constraint: the solver keeps the right factors. *)
Theorem C49_one_constraint_kept c n Kinv Q BQ k0 :
  numOrthoConst c = S O -> precondition c = true -> (mass c = true -> locking c = true) ->
  (mass c = false -> BQ 0 = Q 0) ->
  inner o n (Q 0) (Kinv (BQ 0)) <> 0%k ->
  exists k1, init_hat o c n Kinv Q (bevecs c BQ) k0 = Some k1 /\
    hat k1 0 = Kinv (BQ 0) /\ factor_of n 1 Q (hat k1) (k_fact k1).
Proof.
  intros Hc Hp Hml HB Hne.
  assert (Horb : orelse (bevecs c BQ) Q 0 = BQ 0).
  { unfold bevecs. destruct (mass c) eqn:Em; [rewrite (Hml eq_refl); reflexivity|]. cbn. rewrite HB; auto. }
  unfold init_hat. rewrite Hc. cbn [Nat.eqb]. cbv zeta. unfold update_XKinvBX. cbv zeta. cbn [plus Nat.eqb bind fst snd].
  eexists. split; [reflexivity|]. cbn [hat k_fact].
  assert (Hh : fill c Kinv (hat k0) (orelse (bevecs c BQ) Q) 0 1 0 = Kinv (BQ 0)).
  { unfold fill. cbn [Nat.leb Nat.ltb andb]. unfold precond. rewrite Hp, Horb. reflexivity. }
  split; [exact Hh|]. right. intros b. cbn [msolve Nat.eqb]. eexists. split; [reflexivity|].
  intros i Hi. assert (i = O) by lia. subst i. rewrite total_sum. cbn [ProjModel.sum].
  unfold update_projection. cbn [Nat.eqb Nat.leb Nat.ltb plus andb]. rewrite <- inner_dot, Hh. field. exact Hne.
Qed.

(** The first locked pair of a generalized problem: the same at the restart. *)
Theorem C49_first_pair_kept c n Kinv Q BQ k0 :
  numOrthoConst c = O -> precondition c = true -> mass c = true -> locking c = true -> k_size k0 = O ->
  inner o n (Q 0) (Kinv (BQ 0)) <> 0%k ->
  exists k1, restart_hat o c n Kinv Q (bevecs c BQ) 1 k0 = Some k1 /\
    hat k1 0 = Kinv (BQ 0) /\ factor_of n 1 Q (hat k1) (k_fact k1) /\ k_size k1 = S O.
Proof.
  intros Hc Hp Hm Hl Hz Hne. unfold restart_hat, bevecs. rewrite Hm, Hl, Hz, Hc. cbn [andb bind plus Nat.sub].
  unfold update_XKinvBX. cbv zeta. cbn [plus Nat.eqb bind fst snd].
  eexists. split; [reflexivity|]. cbn [hat k_fact k_size].
  assert (Hh : fill c Kinv (hat k0) BQ 0 1 0 = Kinv (BQ 0)).
  { unfold fill. cbn [Nat.leb Nat.ltb andb]. unfold precond. rewrite Hp. reflexivity. }
  split; [exact Hh|]. split; [|reflexivity]. right. intros b. cbn [msolve Nat.eqb]. eexists. split; [reflexivity|].
  intros i Hi. assert (i = O) by lia. subst i. rewrite total_sum. cbn [ProjModel.sum].
  unfold update_projection. cbn [Nat.eqb Nat.leb Nat.ltb plus andb]. rewrite <- inner_dot, Hh. field. exact Hne.
Qed.

(** Beyond one vector it never works: with two constraints the start fails,
    whatever the problem, and with two converged pairs the restart fails. *)
Theorem C49_two_vectors_refuted c n Kinv Q Bev numConverged k0 :
  (2 <= numOrthoConst c -> init_hat o c n Kinv Q Bev k0 = None) /\
  (2 <= numConverged -> k_size k0 <= numConverged -> restart_hat o c n Kinv Q Bev numConverged k0 = None).
Proof.
  assert (Hup : forall X KX M p q f, 2 <= p + q -> update_XKinvBX o c n X KX M p q f 0 = None).
  { intros X KX M p q f H. unfold update_XKinvBX. cbv zeta.
    destruct (p + q =? 0) eqn:E0; [apply Nat.eqb_eq in E0; lia|].
    destruct (p + q =? 1) eqn:E1; [apply Nat.eqb_eq in E1; lia|].
    destruct (0 <? p + q) eqn:E2; [reflexivity|apply Nat.ltb_ge in E2; lia]. }
  split.
  - intros H. unfold init_hat. destruct (numOrthoConst c =? 0) eqn:E; [apply Nat.eqb_eq in E; lia|].
    cbv zeta. rewrite Hup by lia. reflexivity.
  - intros H Hs. unfold restart_hat. cbv zeta.
    set (size := if locking c then k_size k0 else O).
    assert (size <= numConverged) by (unfold size; destruct (locking c); lia).
    destruct (match Bev with Some _ => _ | None => _ end); [|reflexivity].
    cbn [bind]. rewrite Hup by lia. reflexivity.
Qed.

(** Without a mass matrix, or without locking, the first converged pair makes
    the restart read an array that does not exist. *)
Theorem C49_restart_without_B_refuted c n Kinv Q BQ numConverged k0 :
  mass c = false \/ locking c = false ->
  (if locking c then k_size k0 else O) < numConverged ->
  restart_hat o c n Kinv Q (bevecs c BQ) numConverged k0 = None.
Proof.
  intros Hor Hlt. unfold restart_hat, bevecs. cbv zeta.
  replace (mass c && locking c) with false by (destruct Hor as [->| ->]; rewrite ?andb_false_r; reflexivity).
  destruct (numConverged - (if locking c then k_size k0 else 0) =? 0) eqn:E; [apply Nat.eqb_eq in E; lia|].
  reflexivity.
Qed.

(** One constraint and one locked pair: the factors are of order one and hold
    the constraint only, and the preconditioner cannot be applied. *)
Theorem C49_constraint_and_pair_refuted c n Kinv Q BQ x Bx k0 k1 s blockSize i v :
  numOrthoConst c = S O -> mass c = true -> locking c = true -> rightQ c = true ->
  precondition c = true -> skewQ c = true -> k_size k0 = O ->
  restart_hat o c n Kinv Q (bevecs c BQ) 1 k0 = Some k1 ->
  setup_JD_projectors o c n Kinv x Bx Q (bevecs c BQ) (hat k1) 1 1 blockSize = Some s ->
  apply_projected_preconditioner o solve c n Kinv s (k_fact k1) i v = None.
Proof.
  intros Hc Hm Hl Hr Hp Hq Hz Hk Hs.
  assert (Hf : exists m, k_fact k1 = Number m).
  { unfold restart_hat, bevecs in Hk. rewrite Hm, Hl, Hz in Hk. cbn [andb bind Nat.sub] in Hk.
    unfold update_XKinvBX in Hk. cbv zeta in Hk. cbn [plus Nat.eqb bind fst snd] in Hk.
    injection Hk as <-. cbn [k_fact]. eauto. }
  assert (Hn : n_rq s = 2).
  { unfold setup_JD_projectors in Hs. cbv zeta in Hs. rewrite Hc, Hl, Hr in Hs. cbn [plus] in Hs.
    destruct (_ && negb _); [discriminate|].
    destruct (if _ && mass c then _ else _) as [e b] in Hs.
    destruct (rightX c); [destruct (precondition c && skewX c)|]; injection Hs as <-; reflexivity. }
  destruct Hf as [m Hf]. unfold apply_projected_preconditioner. rewrite Hn, Hf.
  unfold apply_skew_projector at 1. cbn [Nat.eqb msolve bind]. reflexivity.
Qed.

(* ---------------------------------------------------------------- *)
(** ** Corrections without inner iterations *)

(** RightX and SkewX: Olsen's correction, orthogonal to x. *)
Theorem C49_olsen c orth_I n Kinv eps x Bx r d :
  rightX c = true -> skewX c = true ->
  let Kt := fun v => Some (Kinv v) in
  gd_correction o c orth_I n Kt eps x Bx r = Some d ->
  inner o n x (Kop c Kinv Bx) <> 0%k ->
  skew1 o n x (Kop c Kinv Bx) (Kop c Kinv r) d /\ inner o n x d = 0%k.
Proof.
  intros HrX HsX Kt Hg Hne. unfold gd_correction in Hg. rewrite HrX, HsX in Hg. cbn [andb] in Hg.
  assert (Ht : forall v, try_precond c Kt v = Some (Kop c Kinv v))
    by (intros v; unfold try_precond, Kop, Kt; destruct (precondition c); reflexivity).
  unfold olsen in Hg. rewrite !Ht in Hg. cbn [bind] in Hg. rewrite inner_dot in Hne.
  destruct (kzero o (dot n x (Kop c Kinv Bx))) eqn:Ez; [apply (l_zero o L) in Ez; contradiction|].
  injection Hg as <-.
  assert (Hsk : skew1 o n x (Kop c Kinv Bx) (Kop c Kinv r)
     (fun q => Kop c Kinv r q + (- dot n x (Kop c Kinv r)) / dot n x (Kop c Kinv Bx) * Kop c Kinv Bx q)%k).
  { intros q. rewrite !inner_dot. field. exact Hne. }
  split; [exact Hsk|]. rewrite inner_dot.
  rewrite (dot_ext n x _ (fun q => Kop c Kinv r q - Kop c Kinv Bx q * (dot n x (Kop c Kinv r) / dot n x (Kop c Kinv Bx)))%k)
    by (intros q; rewrite Hsk, !inner_dot; reflexivity).
  rewrite dot_sub, dot_mulr. field. exact Hne.
Qed.

(** The correction is the documented one, in the documented cases; RightX
    without SkewX needs a preconditioner, a mass matrix or implicit
    orthogonality with locking. *)
Theorem C49_gd c orth_I n Kinv eps x Bx r d :
  gd_correction o c orth_I n (fun v => Some (Kinv v)) eps x Bx r = Some d ->
  (rightX c = true \/ skewX c = false) ->
  (rightX c = true -> skewX c = false -> precondition c || mass c || (locking c && orth_I) = true) ->
  (rightX c = true -> skewX c = true -> inner o n x (Kop c Kinv Bx) <> 0%k) ->
  gd_documented o (rightX c) (skewX c) n (Kop c Kinv) eps x Bx r d.
Proof.
  intros Hg Hd Hc Hne. unfold gd_documented.
  destruct (rightX c) eqn:E1; destruct (skewX c) eqn:E2.
  - apply (C49_olsen c orth_I n Kinv eps x Bx r d); auto.
  - unfold gd_correction, try_precond in Hg. rewrite E1, E2 in Hg. cbn [andb] in Hg.
    rewrite (Hc eq_refl eq_refl) in Hg. unfold Kop. destruct (precondition c); congruence.
  - destruct Hd; discriminate.
  - unfold gd_correction, try_precond in Hg. rewrite E1 in Hg. cbn [andb] in Hg.
    unfold Kop. destruct (precondition c); congruence.
Qed.

(** Without Olsen's projection an error of the preconditioner is reported. *)
Theorem C49_gd_error c orth_I n Kinv eps x Bx r :
  rightX c && skewX c = false -> precondition c = true -> (forall v, Kinv v = None) ->
  gd_correction o c orth_I n Kinv eps x Bx r = None.
Proof. intros H1 H2 H3. unfold gd_correction, try_precond. rewrite H1, H2. apply H3. Qed.

(** Without any of these the documented r - eps x is not what is used: the
    difference is a multiple of x, which the basis already holds. *)
Theorem C49_cheap_olsen_up_to_x c orth_I n Kinv eps x Bx r d :
  rightX c = true -> skewX c = false -> precondition c = false -> mass c = false ->
  gd_correction o c orth_I n Kinv eps x Bx r = Some d ->
  exists a, forall q, d q = ((r q - eps * Bx q) + a * Bx q)%k.
Proof.
  intros H1 H2 H3 H4 H. unfold gd_correction, try_precond in H.
  rewrite H1, H2, H3, H4 in H. cbn [andb orb] in H. destruct (locking c && orth_I); injection H as <-.
  - exists 0%k. intros. ring.
  - exists eps. intros. ring.
Qed.

(** The documented error for SkewX without RightX is not given: it is GD. *)
Theorem C49_skew_without_right_accepted_refuted c orth_I n Kinv eps x Bx r :
  rightX c = false -> skewX c = true -> precondition c = true ->
  gd_correction o c orth_I n Kinv eps x Bx r = Kinv r.
Proof. intros H1 H2 H3. unfold gd_correction, try_precond. rewrite H1, H3. reflexivity. Qed.

(** With Olsen's correction an error of the preconditioner is lost: the solver
    goes on, and the "correction" is the Ritz vector itself. *)
Theorem C49_olsen_error_lost_refuted c orth_I n Kinv eps x Bx r :
  rightX c = true -> skewX c = true -> precondition c = true ->
  Kinv Bx = None \/ Kinv r = None ->
  gd_correction o c orth_I n Kinv eps x Bx r = Some x.
Proof.
  intros H1 H2 H3 H. unfold gd_correction, olsen, try_precond. rewrite H1, H2, H3. cbn [andb].
  destruct (Kinv Bx); cbn [bind]; [|reflexivity]. destruct H as [H|H]; [discriminate|]. rewrite H. reflexivity.
Qed.
End Proofs.

(* ---------------------------------------------------------------- *)
(** ** Cases *)

Definition Qs : scal Qc := Scal Qc 0%Qc 1%Qc Qcplus Qcmult Qcminus Qcopp Qcdiv Qcinv (fun a => a)
  (fun a => Qc_eq_bool a 0%Qc).

Lemma Qs_laws : laws Qs.
Proof.
  split; auto.
  - exact Qcft.
  - intros a. cbn. split; [apply Qc_eq_bool_correct|]. intros ->. unfold Qc_eq_bool.
    destruct (Qc_eq_dec 0%Qc 0%Qc); congruence.
Qed.

Definition q (z : Z) : Qc := Q2Qc (inject_Z z).
(** Cramer's rule, for the systems of order two of the cases. *)
Definition cramer (d : nat) (A : nat -> nat -> Qc) (b : nat -> Qc) : nat -> Qc :=
  let '(a00, a01, a10, a11, b0, b1) := (A 0 0, A 0 1, A 1 0, A 1 1, b 0, b 1) in
  let det := (a00 * a11 - a01 * a10)%Qc in
  fun j => if j =? 0 then ((b0 * a11 - a01 * b1) / det)%Qc else ((a00 * b1 - b0 * a10) / det)%Qc.

(** Three entries; B = diag(1,1,4); Q = e0, x = e1; A and K^{-1} full. *)
Definition vec3 (f : Qc -> Qc -> Qc -> Qc * Qc * Qc) (v : nat -> Qc) : nat -> Qc :=
  let '(a, b, c) := f (v 0) (v 1) (v 2) in fun r => if r =? 0 then a else if r =? 1 then b else c.
Definition eA := vec3 (fun a b c => (q 2 * a + b + q 3 * c, a + q 5 * b + c, q 3 * a + b + q 7 * c)%Qc).
Definition eB := vec3 (fun a b c => (a, b, q 4 * c)%Qc).
Definition eK := vec3 (fun a b c => (q 3 * a + b, a + q 3 * b + c, b + q 3 * c)%Qc).
Definition e (k : nat) : nat -> Qc := fun r => if (r =? k)%nat then q 1 else q 0.
Definition eQ : nat -> nat -> Qc := fun j => e j.
Definition ex : nat -> nat -> Qc := fun j => e (1 + j).
Definition eBQ : nat -> nat -> Qc := fun j => eB (eQ j).
Definition eBx : nat -> nat -> Qc := fun j => eB (ex j).
Definition ev : nat -> Qc := fun r => if r =? 0 then q 1 else if r =? 1 then q 2 else q 5.
(** Full JD with everything on, one locked vector. *)
Definition full : choice := Choice true true true true true true true true true 0 3.

Lemma e_orthonormal : orthonormal Qs 3 1 eQ eBQ (ex 0) (eBx 0).
Proof.
  split; [intros i j Hi Hj; assert (i = 0) by lia; assert (j = 0) by lia; subst; vm_compute; reflexivity|].
  split; [vm_compute; reflexivity|].
  split; intros j Hj; assert (j = 0) by lia; subst; vm_compute; reflexivity.
Qed.

Definition show (n : nat) (v : option (nat -> Qc)) : option (list Q) :=
  match v with Some f => Some (map (fun i => this (f i)) (seq 0 n)) | None => None end.

Definition setup_full := setup_JD_projectors Qs full 3 eK ex eBx eQ (bevecs full eBQ) (fun j => eK (eBQ j)) 1 0 1.

Example C49_left_case :
  match setup_full with
  | Some s => show 3 (apply_projected_matrix Qs cramer full 3 eA eB s (fun _ => q 1) 0 ev) = Some [0; 0; 20]%Q
  | None => False end.
Proof. vm_compute. reflexivity. Qed.

Example C49_right_case :
  match setup_full with
  | Some s => show 3 (apply_projected_preconditioner Qs cramer full 3 eK s (Number (q 3)) 0 ev)
     = Some [(- 31 # 9); 0; (122 # 9)]%Q
  | None => False end.
Proof. vm_compute. reflexivity. Qed.

(** Two columns, room for the factors: the hypotheses of the update hold. *)
Example C49_update_case :
  let c := Choice true true true true true true true true false 0 3 in
  let KX := fun j => eK (eQ j) in
  exists M f, update_XKinvBX Qs c 3 eQ KX (fun _ _ => q 0) 0 2 Unset 2 = Some (M, f) /\
    factor_of Qs cramer 3 2 eQ KX f.
Proof.
  intros c KX.
  destruct (update_XKinvBX Qs c 3 eQ KX (fun _ _ => q 0) 0 2 Unset 2) as [[M f]|] eqn:E; [|discriminate E].
  exists M, f. split; [reflexivity|].
  apply (C49_update_factors Qs Qs_laws cramer c 3 eK eQ KX (fun _ _ => q 0) 0 2 Unset 2 M f).
  - intros; lia.
  - intros _. split; [|reflexivity]. intros u v. unfold inner, total. cbn. ring.
  - discriminate.
  - intros A HA b i Hi. unfold total. cbn [seq map fold_right plus].
    assert (H00 : A 0 0 = q 3) by (rewrite HA by lia; vm_compute; reflexivity).
    assert (H01 : A 0 1 = q 1) by (rewrite HA by lia; vm_compute; reflexivity).
    assert (H10 : A 1 0 = q 1) by (rewrite HA by lia; vm_compute; reflexivity).
    assert (H11 : A 1 1 = q 3) by (rewrite HA by lia; vm_compute; reflexivity).
    assert (Hd : (q 3 * q 3 - q 1 * q 1)%Qc <> 0%Qc) by (vm_compute; discriminate).
    unfold cramer. destruct i as [|[|i]]; [| |lia]; rewrite H00, H01, H10, H11; cbn; field; exact Hd.
  - exact E.
Qed.

(** A mass matrix without locking: the inner solver works with a different
    operator, and its vectors are not orthogonal to x. *)
Definition nolock : choice := Choice true true false false false false false false true 0 3.
Definition xs : nat -> nat -> Qc := fun _ r => if (r =? 2)%nat then Q2Qc (1 # 2) else q 0.
Theorem C49_B_without_locking_refuted :
  let Bx := fun j => eB (xs j) in
  orthonormal Qs 3 0 eQ eBQ (xs 0) (Bx 0) /\
  exists s w, setup_JD_projectors Qs nolock 3 eK xs Bx eQ (bevecs nolock eBQ) eQ 0 0 1 = Some s /\
    apply_projected_matrix Qs cramer nolock 3 eA eB s (fun _ => q 1) 0 ev = Some w /\
    w 2 <> left_operator Qs true true 3 0 eA eB (q 1) eQ eBQ (xs 0) (Bx 0) ev 2 /\
    inner Qs 3 (xs 0) w <> 0%Qc.
Proof.
  intros Bx. split.
  - split; [intros; lia|]. split; [vm_compute; reflexivity|]. split; intros; lia.
  - eexists. eexists. split; [reflexivity|]. split; [reflexivity|]. split; vm_compute; discriminate.
Qed.

(** With both skew projections the result is not orthogonal to Q: the
    documented product is not a projection onto that complement. *)
Example C49_both_skew_not_orthogonal :
  match setup_full with
  | Some s =>
      match apply_projected_preconditioner Qs cramer full 3 eK s (Number (q 3)) 0 ev with
      | Some w => inner Qs 3 (ex 0) w = 0%Qc /\ inner Qs 3 (eQ 0) w <> 0%Qc
      | None => False end
  | None => False end.
Proof. vm_compute. split; [reflexivity|discriminate]. Qed.

(** The restart refuses in a reachable case: JDQR's projectors, one pair. *)
Example C49_restart_case :
  let c := Choice false false true true true true true true false 0 3 in
  restart_hat Qs c 3 eK eQ (bevecs c eBQ) 1 (Kept eQ (fun _ _ => q 0) Unset 0) = None /\
  exists s, setup_JD_projectors Qs full 3 eK ex eBx eQ (bevecs full eBQ) eQ 1 0 2 = Some s.
Proof. split; [reflexivity|]. apply C49_setup_fits. vm_compute. lia. Qed.

Example C49_olsen_case :
  show 3 (gd_correction Qs full false 3 (fun v => Some (eK v)) (q 1) (ex 0) (eBx 0) ev) = Some [1; 0; 13]%Q /\
  inner Qs 3 (ex 0) (Kop full eK (eBx 0)) <> 0%Qc.
Proof. split; [vm_compute; reflexivity|]. vm_compute. discriminate. Qed.
