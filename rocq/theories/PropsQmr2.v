(** C53, continued: the inner iteration with the operators the solver gives it
    (apply_projected_matrix and apply_projected_preconditioner of ProjModel.v, set
    up by setup_JD_projectors), for a real symmetric matrix. *)
From Coq Require Import List Arith Lia Bool Field.
From Verif Require Import Base ProjModel SpecProj PropsProj QmrModel SpecQmr PropsQmr.
Import ListNotations.

Set Implicit Arguments.

Section Vectors.
Context {K : Type} (o : scal K) (L : laws o).

(** Vectors of n numbers with the operations of the code. *)
Definition vecs (n : nat) : vsp K (nat -> K) :=
  Vsp (fun _ => k0 o) (fun a b r => kadd o (a r) (b r)) (fun k a r => kmul o k (a r)) (dot o n).
(** A matrix times a vector. *)
Definition times_v (n : nat) (Am : nat -> nat -> K) (v : nat -> K) : nat -> K :=
  fun r => sum o n (fun l => kmul o (Am r l) (v l)).

(** The inner solve of column i of the block, as the solver sets it up: no mass
    matrix, the left projection with x; the matrix and the preconditioner are
    symmetric; x is a unit vector orthogonal to the orthonormal Q; theta is its
    Rayleigh quotient; with the left projection with Q its residual is orthogonal to
    Q.  [M] and [Kp] are the functions the inner iteration calls. *)
Record inner_setting solve (c : choice) (n k : nat) (Am : nat -> nat -> K) (Kinv : (nat -> K) -> nat -> K)
    (X Q hat : nat -> nat -> K) (numLocked numConverged blockSize i : nat) (shift : nat -> K)
    (theta : K) (r : nat -> K) (M Kp : (nat -> K) -> nat -> K) : Prop := InnerSetting {
  is_k : k = numOrthoConst c + (if locking c then numLocked else numConverged);
  is_mass : mass c = false;
  is_leftX : leftX c = true;
  is_i : i < blockSize;
  is_sym : forall a b, a < n -> b < n -> Am a b = Am b a;
  is_Kinv : forall a b, dot o n (Kinv a) b = dot o n a (Kinv b);
  is_orth : orthonormal o n k Q Q (X i) (X i);
  is_theta : inner o n (X i) (times_v n Am (X i)) = theta;
  is_r : forall q, r q = ksub o (times_v n Am (X i) q) (kmul o theta (X i q));
  is_rQ : leftQ c = true -> forall j, j < k -> inner o n (Q j) r = k0 o;
  is_ops : exists s, setup_JD_projectors o c n Kinv X X Q None hat numLocked numConverged blockSize = Some s /\
    (forall v, apply_projected_matrix o solve c n (times_v n Am) (fun v => v) s shift i v = Some (M v)) /\
    (forall v, apply_projected_preconditioner o solve c n Kinv s Null i v = Some (Kp v)) }.

(** The projections with which the preconditioned iteration is a symmetric method:
    no preconditioner, or a right projection with x, the right projection with Q
    exactly when there is the left one, and no skew projections with Q. *)
Definition symmetric_choice (c : choice) (n k : nat) (Kinv : (nat -> K) -> nat -> K) (x : nat -> K) : Prop :=
  precondition c = false \/
  rightX c = true /\
  (skewX c = true -> inner o n x (Kinv x) <> k0 o) /\
  (k = 0 \/ leftQ c = false /\ rightQ c = false \/
   leftQ c = true /\ rightQ c = true /\ skewQ c = false /\ skewX c = false).

End Vectors.

Section S.
Context {K : Type} (o : scal K) (L : laws o) (real : forall a, kconj o a = a).
Context (solve : nat -> (nat -> nat -> K) -> (nat -> K) -> nat -> K).
Context (c : choice) (n k : nat) (Am : nat -> nat -> K) (Kinv : (nat -> K) -> nat -> K).
Context (X Q hat : nat -> nat -> K) (numLocked numConverged blockSize i : nat) (shift : nat -> K).
Context (theta : K) (r : nat -> K) (M Kp : (nat -> K) -> nat -> K).
Context (IS : inner_setting o solve c n k Am Kinv X Q hat numLocked numConverged blockSize i shift theta r M Kp).

Local Notation dt := (dot o n).
Local Notation V := (vecs o n).
Local Notation A := (times_v o n Am).
Local Notation x := (X i).
Local Notation s := (shift i).
Local Notation "0'" := (k0 o). Local Notation "1'" := (k1 o).
Local Notation "a +' b" := (kadd o a b) (at level 50, left associativity).
Local Notation "a -' b" := (ksub o a b) (at level 50, left associativity).
Local Notation "a *' b" := (kmul o a b) (at level 40, left associativity).
Local Notation "a /' b" := (kdiv o a b) (at level 40, left associativity).
Add Field kf2 : (l_field o L).

Lemma dt_sym a b : dt a b = dt b a.
Proof. rewrite <- (dot_conj o L n b a), real. reflexivity. Qed.
Lemma dt_add a b v : dt a (fun q => b q +' v q) = dt a b +' dt a v.
Proof. unfold dot. rewrite <- (sum_add o L). apply (sum_ext o). intros. ring. Qed.
Lemma dt_scl a kk v : dt a (fun q => kk *' v q) = kk *' dt a v.
Proof. unfold dot. rewrite <- (sum_mull o L). apply (sum_ext o). intros. ring. Qed.
Lemma dt_zero a : dt a (fun _ => 0') = 0'.
Proof. unfold dot. apply (sum_zero o L). intros. ring. Qed.

Lemma vecs_laws : real_product o V.
Proof.
  split; cbn [vecs vdot vadd vscl v0].
  - intros a b v. rewrite dt_sym, dt_add, (dt_sym v a), (dt_sym v b). reflexivity.
  - intros kk a v. rewrite dt_sym, dt_scl, (dt_sym v a). reflexivity.
  - apply dt_sym.
  - intros v. rewrite dt_sym. apply dt_zero.
Qed.

Lemma A_lin : linear o V A.
Proof.
  split; cbn [vecs vdot vadd vscl v0]; [intros v|intros a b v|intros kk a v].
  - rewrite dt_sym. rewrite (dot_ext o n v _ (fun _ => 0')); [apply dt_zero|].
    intros q. unfold times_v. apply (sum_zero o L). intros. ring.
  - rewrite dt_sym. rewrite (dot_ext o n v _ (fun q => A a q +' A b q)); [|].
    + rewrite dt_add, (dt_sym v), (dt_sym v (A b)). reflexivity.
    + intros q. unfold times_v. rewrite <- (sum_add o L). apply (sum_ext o). intros. ring.
  - rewrite dt_sym. rewrite (dot_ext o n v _ (fun q => kk *' A a q)); [|].
    + rewrite dt_scl, (dt_sym v). reflexivity.
    + intros q. unfold times_v. rewrite <- (sum_mull o L). apply (sum_ext o). intros. ring.
Qed.

Lemma A_sym a b : dt (A a) b = dt a (A b).
Proof.
  unfold dot, times_v.
  transitivity (sum o n (fun q => sum o n (fun l => a l *' Am l q *' b q))).
  - apply (sum_ext o). intros q Hq. rewrite real, <- (sum_mulr o L). apply (sum_ext o). intros l Hl.
    rewrite (is_sym IS Hq Hl). ring.
  - rewrite (sum_swap o L). apply (sum_ext o). intros l Hl. rewrite real, <- (sum_mull o L).
    apply (sum_ext o). intros. ring.
Qed.

Let HQQ : forall a b, a < k -> b < k -> dt (Q a) (Q b) = if a =? b then 1' else 0'.
Proof. intros. rewrite <- (inner_dot o L). apply (is_orth IS); auto. Qed.
Let Hxx : dt x x = 1'.
Proof. rewrite <- (inner_dot o L). apply (is_orth IS). Qed.
Let HxQ : forall j, j < k -> dt x (Q j) = 0'.
Proof. intros. rewrite <- (inner_dot o L). apply (is_orth IS); auto. Qed.
Let HQx : forall j, j < k -> dt (Q j) x = 0'.
Proof. intros. rewrite <- (inner_dot o L). apply (is_orth IS); auto. Qed.

Definition qsum (a b : nat -> K) : K := sum o k (fun j => dt (Q j) a *' dt (Q j) b).
Lemma qsum_sym a b : qsum a b = qsum b a.
Proof. apply (sum_ext o). intros. ring. Qed.
Lemma qsum_0 a b : (forall j, j < k -> dt (Q j) b = 0') -> qsum a b = 0'.
Proof. intros H. apply (sum_zero o L). intros j Hj. rewrite H by auto. ring. Qed.

(** dt of a vector projected with Q *)
Lemma projQ_dt w b : dt b (fun q => w q -' sum o k (fun j => Q j q *' dt (Q j) w)) = dt b w -' qsum w b.
Proof.
  rewrite (dot_sub o L), (dot_comb o L). f_equal. apply (sum_ext o). intros j Hj.
  rewrite (dt_sym b). ring.
Qed.
Lemma projx_dt w b : dt b (fun q => w q -' x q *' dt x w) = dt b w -' dt x w *' dt x b.
Proof. rewrite (dot_sub o L), (dot_mulr o L), (dt_sym b x). ring. Qed.

Let Hk : k = sizeQ c numLocked numConverged := is_k IS.
Let swB : forall kk, same_without_B c kk Q Q X X.
Proof. intros kk _. split; auto. Qed.
Let bev : bevecs c Q = None.
Proof. unfold bevecs. rewrite (is_mass IS). reflexivity. Qed.
Let ml : mass c = true -> locking c = true.
Proof. rewrite (is_mass IS). discriminate. Qed.

(** The operator: (A - s I) u without its components along x and Q. *)
Lemma M_dt u b : dt (M u) b = dt (A u) b -' s *' dt u b -' (dt x (A u) -' s *' dt x u) *' dt x b
    -' (if leftQ c then sum o k (fun j => (dt (Q j) (A u) -' s *' dt (Q j) u) *' dt (Q j) b) else 0').
Proof.
  destruct (is_ops IS) as [st [Hst [HM _]]].
  destruct (C49_left_operator o L solve c n Kinv A (fun v => v) shift X X Q Q hat numLocked numConverged
              blockSize st i u ml (swB _)) as [w [Hw Hl]].
  { intros _. rewrite <- Hk. apply (is_orth IS). }
  { apply (is_i IS). }
  { rewrite bev. exact Hst. }
  rewrite HM in Hw. injection Hw as <-. rewrite <- Hk in Hl.
  set (w0 := fun q => A u q -' s *' u q).
  assert (Hw0 : forall b, dt b w0 = dt b (A u) -' s *' dt b u).
  { intros b'. unfold w0. rewrite (dot_sub o L). f_equal.
    rewrite (dot_ext o n b' _ (fun q => u q *' s)) by (intros; ring). rewrite (dot_mulr o L). ring. }
  rewrite dt_sym. destruct (leftQ c) eqn:Hlq.
  - rewrite (dot_ext o n b (M u) (both_left o n k Q Q x x w0)).
    + unfold both_left. rewrite (dot_sub o L), (dot_mulr o L).
      rewrite projQ_dt, !Hw0, (dt_sym b x), (dt_sym b (A u)), (dt_sym b u).
      unfold qsum. rewrite (sum_ext o k (fun j => dt (Q j) w0 *' dt (Q j) b)
        (fun j => (dt (Q j) (A u) -' s *' dt (Q j) u) *' dt (Q j) b)) by (intros; rewrite Hw0; reflexivity).
      ring.
    + intros q. rewrite Hl. unfold left_operator, Bop. rewrite (is_leftX IS), (is_mass IS). cbv zeta.
      fold w0. apply (doc_left o L). intros. apply HQx. auto.
  - rewrite (dot_ext o n b (M u) (fun q => w0 q -' x q *' dt x w0)).
    + rewrite projx_dt, !Hw0, (dt_sym b (A u)), (dt_sym b u). ring.
    + intros q. rewrite Hl. unfold left_operator, Bop. rewrite (is_leftX IS), (is_mass IS). cbv zeta.
      fold w0. apply (proj1_dot o L).
Qed.

Definition inU (u : nat -> K) : Prop := dt x u = 0' /\ (leftQ c || rightQ c = true -> forall j, j < k -> dt (Q j) u = 0').
Definition inW (w : nat -> K) : Prop := dt x w = 0' /\ (leftQ c = true -> forall j, j < k -> dt (Q j) w = 0').

Lemma inU_sub : subspace V inU.
Proof.
  split; cbn [vecs vadd vscl v0].
  - split; intros; apply dt_zero.
  - intros a b [A1 A2] [B1 B2]. split; intros; rewrite dt_add, ?A1, ?B1, ?A2, ?B2; auto; ring.
  - intros kk a [A1 A2]. split; intros; rewrite dt_scl, ?A1, ?A2; auto; ring.
Qed.
Lemma inW_sub : subspace V inW.
Proof.
  split; cbn [vecs vadd vscl v0].
  - split; intros; apply dt_zero.
  - intros a b [A1 A2] [B1 B2]. split; intros; rewrite dt_add, ?A1, ?B1, ?A2, ?B2; auto; ring.
  - intros kk a [A1 A2]. split; intros; rewrite dt_scl, ?A1, ?A2; auto; ring.
Qed.

Lemma M_lin : linear o V M.
Proof.
  destruct A_lin as [L0 La Ls]. destruct vecs_laws as [pa ps psy p0].
  cbn [vecs vdot vadd vscl v0] in *.
  assert (L0' : forall v, dt v (A (fun _ => 0')) = 0') by (intros; rewrite psy; apply L0).
  assert (La' : forall a b v, dt v (A (fun q => a q +' b q)) = dt v (A a) +' dt v (A b))
    by (intros; rewrite psy, La, (psy (A a)), (psy (A b)); reflexivity).
  assert (Ls' : forall kk a v, dt v (A (fun q => kk *' a q)) = kk *' dt v (A a))
    by (intros; rewrite psy, Ls, (psy (A a)); reflexivity).
  split; cbn [vecs vdot vadd vscl v0]; [intros v|intros a b v|intros kk a v]; rewrite !M_dt.
  - rewrite (dt_sym (A _)), (dt_sym (fun _ => 0')), !L0', !dt_zero. destruct (leftQ c); [|ring].
    rewrite (sum_zero o L); [ring|]. intros j Hj. rewrite L0', dt_zero. ring.
  - rewrite La, pa, La', dt_add. destruct (leftQ c); [|ring].
    rewrite (sum_ext o k _ (fun j => (dt (Q j) (A a) -' s *' dt (Q j) a) *' dt (Q j) v
        +' (dt (Q j) (A b) -' s *' dt (Q j) b) *' dt (Q j) v))
      by (intros; rewrite La', dt_add; ring).
    rewrite (sum_add o L). ring.
  - rewrite Ls, ps, Ls', dt_scl. destruct (leftQ c); [|ring].
    rewrite (sum_ext o k _ (fun j => kk *' ((dt (Q j) (A a) -' s *' dt (Q j) a) *' dt (Q j) v)))
      by (intros; rewrite Ls', dt_scl; ring).
    rewrite (sum_mull o L). ring.
Qed.

(** The right operator. *)
Lemma K_dt v : (precondition c && skewX c && rightX c = true -> inner o n x (Kinv x) <> 0') ->
  (precondition c && skewQ c && rightQ c = true -> k = 0) ->
  exists u,
  (forall b, dt u b = dt (Kop c Kinv v) b -' (if rightQ c then qsum (Kop c Kinv v) b else 0')) /\
  (forall b, dt (Kp v) b = dt u b -' (if rightX c then
      if precondition c && skewX c then dt x u /' dt x (Kinv x) *' dt (Kinv x) b else dt x u *' dt x b else 0')).
Proof.
  intros Hsx Hsq. destruct (is_ops IS) as [st [Hst [_ HK]]].
  destruct (C49_right_operator o L solve c n Kinv X X Q Q hat Null numLocked numConverged
              blockSize st i v ml (swB _)) as [u [w [Hw [Hu Hr]]]].
  { destruct (rightQ c && (precondition c && skewQ c)) eqn:Z; [|reflexivity]. left. rewrite <- Hk. apply Hsq.
    destruct (rightQ c), (precondition c), (skewQ c); auto; discriminate. }
  { intros Z. apply Hsx. destruct (rightX c), (precondition c), (skewX c); auto; discriminate. }
  { apply (is_i IS). }
  { rewrite bev. exact Hst. }
  rewrite HK in Hw. injection Hw as <-. rewrite <- Hk in Hu.
  exists u. split; intros b.
  - rewrite dt_sym. destruct (rightQ c) eqn:Hq.
    + destruct (precondition c && skewQ c) eqn:Z.
      * assert (k = 0) as K0 by (apply Hsq; reflexivity). destruct Hu as [a [_ Hu]].
        rewrite (dot_ext o n b u (Kop c Kinv v)).
        -- unfold qsum. rewrite K0. cbn. rewrite dt_sym. ring.
        -- intros q. rewrite Hu, K0. unfold total. cbn. ring.
      * rewrite (dot_ext o n b u (fun q => Kop c Kinv v q -' sum o k (fun j => Q j q *' dt (Q j) (Kop c Kinv v))))
          by (intros; rewrite Hu; apply (proj_sum o L)).
        rewrite projQ_dt, (dt_sym b). reflexivity.
    + rewrite Hu, (dt_sym b). ring.
  - rewrite dt_sym. destruct (rightX c) eqn:Hq.
    + destruct (precondition c && skewX c) eqn:Z.
      * unfold skew1 in Hr.
        rewrite (dot_ext o n b (Kp v) (fun q => u q -' Kinv x q *' (dt x u /' dt x (Kinv x))))
          by (intros; rewrite Hr, !(inner_dot o L); reflexivity).
        rewrite (dot_sub o L), (dot_mulr o L), (dt_sym b u), (dt_sym b (Kinv x)). ring.
      * rewrite (dot_ext o n b (Kp v) (fun q => u q -' x q *' dt x u)) by (intros; rewrite Hr; apply (proj1_dot o L)).
        rewrite projx_dt, (dt_sym b u). reflexivity.
    + rewrite Hr, (dt_sym b). ring.
Qed.

Context (SC : symmetric_choice o c n k Kinv x).

Lemma setting_equation : correction_equation o V M Kp r inU inW.
Proof.
  assert (Hr0 : forall b, dt b r = dt b (A x) -' theta *' dt b x).
  { intros b. rewrite (dot_ext o n b r (fun q => A x q -' x q *' theta)) by (intros; rewrite (is_r IS); ring).
    rewrite (dot_sub o L), (dot_mulr o L). ring. }
  assert (Hth : dt x (A x) = theta) by (rewrite <- (inner_dot o L); apply (is_theta IS)).
  assert (P1 : precondition c && skewX c && rightX c = true -> inner o n x (Kinv x) <> 0').
  { intros Z. destruct SC as [F|[_ [F _]]]; [rewrite F in Z; discriminate|]. apply F.
    destruct (precondition c), (skewX c); auto; discriminate. }
  assert (P2 : precondition c && skewQ c && rightQ c = true -> k = 0).
  { intros Z. destruct SC as [F|[_ [_ [F|[[F1 F2]|[F1 [F2 [F3 F4]]]]]]]]; auto.
    - rewrite F in Z; discriminate.
    - rewrite F2, andb_false_r in Z; discriminate.
    - rewrite F3, andb_false_r in Z; discriminate. }
  split; cbn [vecs vdot vadd vscl v0].
  - apply inU_sub.
  - apply inW_sub.
  - apply M_lin.
  - split; [rewrite Hr0, Hth, Hxx; ring|]. intros Hl j Hj. rewrite <- (inner_dot o L). apply (is_rQ IS); auto.
  - intros u [U1 U2]. split; [|intros Hl j Hj]; rewrite dt_sym, M_dt.
    + rewrite Hxx, (dt_sym (A u)), (dt_sym u).
      destruct (leftQ c); [|ring]. rewrite (sum_zero o L); [ring|]. intros j Hj. rewrite (HQx Hj). ring.
    + rewrite Hl, (HxQ Hj), (dt_sym (A u)), (dt_sym u).
      rewrite (sum_ext o k _ (fun j0 => (if j =? j0 then 1' else 0') *' (dt (Q j0) (A u) -' s *' dt (Q j0) u)))
        by (intros j0 Hj0; rewrite (HQQ Hj0 Hj), (Nat.eqb_sym j0); ring).
      rewrite (sum_delta o L) by auto. ring.
  - (* the preconditioner takes W to U *)
    intros g [W1 W2]. destruct (K_dt g P1 P2) as [u [Hu Hw]].
    split; [|intros Hl j Hj]; rewrite dt_sym, Hw.
    + destruct SC as [F|[F [_ _]]].
      * assert (Hxu : dt u x = 0').
        { rewrite Hu. unfold Kop. rewrite F, (dt_sym g), W1. destruct (rightQ c); [|ring].
          rewrite qsum_0 by (intros; apply HQx; auto). ring. }
        rewrite F, (dt_sym x u), Hxu. cbn [andb]. destruct (rightX c); ring.
      * rewrite F. destruct (precondition c && skewX c) eqn:Z.
        -- rewrite (dt_sym u), (dt_sym (Kinv x)). field. rewrite <- (inner_dot o L). apply P1. try rewrite Z; rewrite F; reflexivity.
        -- rewrite Hxx, (dt_sym u). ring.
    + destruct SC as [F|[F [_ G]]].
      * assert (Hqu : dt u (Q j) = 0').
        { rewrite Hu. unfold Kop. rewrite F. destruct (rightQ c) eqn:Hq.
          - unfold qsum.
            rewrite (sum_ext o k _ (fun j0 => (if j =? j0 then 1' else 0') *' dt (Q j0) g))
              by (intros j0 Hj0; rewrite (HQQ Hj0 Hj), (Nat.eqb_sym j0); ring).
            rewrite (sum_delta o L), (dt_sym g) by auto. ring.
          - rewrite orb_false_r in Hl. rewrite (dt_sym g), W2 by auto. ring. }
        rewrite F, Hqu, (HxQ Hj). cbn [andb]. destruct (rightX c); ring.
      * destruct G as [G|[[G1 G2]|[G1 [G2 [G3 G4]]]]]; [lia|rewrite G1, G2 in Hl; discriminate|].
        rewrite F, G4, andb_false_r, (HxQ Hj), Hu, G2. unfold qsum.
        rewrite (sum_ext o k _ (fun j0 => (if j =? j0 then 1' else 0') *' dt (Q j0) (Kop c Kinv g)))
          by (intros j0 Hj0; rewrite (HQQ Hj0 Hj), (Nat.eqb_sym j0); ring).
        rewrite (sum_delta o L), (dt_sym (Kop c Kinv g)) by auto. ring.
  - (* M symmetric on U *)
    intros u v [U1 U2] [V1 V2]. rewrite M_dt, (dt_sym u (M v)), M_dt, U1, V1, A_sym, (dt_sym u v), (dt_sym (A v)).
    destruct (leftQ c); [|ring].
    rewrite !(sum_zero o L); [ring| |]; intros j Hj; rewrite ?U2, ?V2 by auto; ring.
  - (* K symmetric on W *)
    intros a b [A1 A2] [B1 B2]. rewrite (dt_sym a (Kp b)).
    destruct (K_dt a P1 P2) as [ua [Ha Hwa]]. destruct (K_dt b P1 P2) as [ub [Hb Hwb]].
    rewrite Hwa, Hwb, Ha, Hb, A1, B1.
    assert (Ks : dt (Kop c Kinv a) b = dt (Kop c Kinv b) a).
    { unfold Kop. destruct (precondition c); [rewrite (is_Kinv IS)|]; apply dt_sym. }
    rewrite Ks. destruct SC as [F|[F [_ G]]].
    + rewrite F. cbn [andb]. unfold Kop. rewrite F. rewrite (qsum_sym a b). destruct (rightX c), (rightQ c); ring.
    + assert (Q0 : (if rightQ c then qsum (Kop c Kinv a) b else 0') = 0' /\ (if rightQ c then qsum (Kop c Kinv b) a else 0') = 0').
      { destruct (rightQ c) eqn:Hq; [|split; reflexivity].
        destruct G as [G|[[G1 G2]|[G1 [G2 [G3 G4]]]]]; [|discriminate|]; split; apply qsum_0; intros j Hj; try lia; auto. }
      destruct Q0 as [-> ->]. rewrite F. destruct (precondition c && skewX c) eqn:Z; [|ring].
      assert (Hp : precondition c = true) by (destruct (precondition c); auto; discriminate).
      assert (Hsk : skewX c = true) by (destruct (skewX c); auto; rewrite andb_false_r in Z; discriminate).
      assert (Hq : forall w y, (forall bb, dt w bb = dt (Kop c Kinv y) bb -' (if rightQ c then qsum (Kop c Kinv y) bb else 0')) ->
                   dt x w = dt (Kinv x) y).
      { intros w y Hy. rewrite dt_sym, Hy. unfold Kop at 1. rewrite Hp, (is_Kinv IS y x), (dt_sym y).
        destruct (rightQ c); [|ring]. rewrite qsum_0 by (intros; apply HQx; auto). ring. }
      rewrite (Hq ua a Ha), (Hq ub b Hb). field. rewrite <- (inner_dot o L). apply P1. try rewrite Z; rewrite F; reflexivity.
Qed.

Lemma setting_ritz : ritz o V A x r theta.
Proof.
  split; cbn [vecs vdot].
  - apply A_lin.
  - apply A_sym.
  - apply Hxx.
  - rewrite <- (inner_dot o L). apply (is_theta IS).
  - intros v. rewrite dt_sym, (dot_ext o n v r (fun q => A x q -' x q *' theta)) by (intros; rewrite (is_r IS); ring).
    rewrite (dot_sub o L), (dot_mulr o L), (dt_sym v), (dt_sym v x). ring.
Qed.

(** ** C53: the inner iteration of the solver follows the Rayleigh quotient of x - sol *)
Theorem C53_solver_ritz_value rn2 m q :
  qmr_run o V M Kp r rn2 m = Some q ->
  let y := fun e => x e -' qsol q e in
  bnorm o V q = inner o n y y /\
  (inner o n y y <> 0' -> eval_updated o V theta s q = inner o n y (A y) /' inner o n y y).
Proof.
  intros Hrun y.
  destruct (@C53_ritz_value K (nat -> K) o L V vecs_laws M Kp r rn2 inU inW setting_equation A x theta s m q setting_ritz) as [E1 E2]; auto.
  - intros u [H _]. exact H.
  - intros u v [U1 U2] [V1 V2]. cbn [vecs vdot]. rewrite M_dt, V1. destruct (leftQ c); [|ring].
    rewrite (sum_zero o L); [ring|]. intros j Hj. rewrite V2 by auto. ring.
  - unfold rayleigh in E2. unfold minus in E1, E2. cbn [vecs vdot vadd vscl] in E1, E2.
    assert (Hy : forall b, dt b (fun r0 => x r0 +' kopp o 1' *' qsol q r0) = dt b y).
    { intros b. apply (dot_ext o). intros e. unfold y. ring. }
    assert (HAy : forall b, dt b (A (fun r0 => x r0 +' kopp o 1' *' qsol q r0)) = dt b (A y)).
    { intros b. apply (dot_ext o). intros e. unfold times_v. apply (sum_ext o). intros l _. unfold y. ring. }
    rewrite Hy, dt_sym, Hy in E1. rewrite !(inner_dot o L). split; [exact E1|]. intros Hne.
    rewrite HAy, (dt_sym (fun r0 => _) (A y)), Hy in E2. rewrite Hy, (dt_sym (fun r0 => _)), Hy in E2.
    rewrite (dt_sym y (A y)), <- E2 by (rewrite E1; exact Hne). field. exact Hne.
Qed.

(** Without preconditioner tau is the norm of r - M sol, and the estimate of the
    residual norm is the residual norm of x - sol. *)
Theorem C53_solver_linear_residual rn2 m q :
  precondition c = false -> (rightQ c = true -> leftQ c = true) -> rn2 = inner o n r r ->
  qmr_run o V M Kp r rn2 m = Some q ->
  let d := fun e => r e -' M (qsol q) e in
  qtau2 q = inner o n d d.
Proof.
  intros Hp Hrq Hrn Hrun d.
  assert (E := @C53_linear_residual K (nat -> K) o L V vecs_laws M Kp r rn2 inU inW setting_equation).
  unfold minus in E. cbn [vecs vdot vadd vscl] in E.
  assert (Hd : forall b, dt b (fun r0 => r r0 +' kopp o 1' *' M (qsol q) r0) = dt b d).
  { intros b. apply (dot_ext o). intros e. unfold d. ring. }
  rewrite (inner_dot o L). erewrite E; [rewrite Hd, dt_sym, Hd; reflexivity| | |exact Hrun].
  - intros g v [W1 W2].
    destruct (K_dt g) as [u [Hu Hw]]; try (rewrite Hp; discriminate).
    assert (Hu' : forall b, dt u b = dt g b).
    { intros b. rewrite Hu. unfold Kop. rewrite Hp. destruct (rightQ c) eqn:Hq; [|ring].
      rewrite qsum_sym, qsum_0; [ring|]. apply W2. auto. }
    rewrite Hw, Hp, Hu', (dt_sym x), Hu', (dt_sym g x), W1. cbn [andb]. destruct (rightX c); ring.
  - rewrite Hrn. apply (inner_dot o L).
Qed.

Theorem C53_solver_eigen_residual rn2 m q :
  precondition c = false -> (rightQ c = true -> leftQ c = true) -> rn2 = inner o n r r ->
  (leftQ c = true -> forall j, j < k -> exists lam, forall e, A (Q j) e = lam *' Q j e) ->
  qmr_run o V M Kp r rn2 m = Some q ->
  let y := fun e => x e -' qsol q e in
  let ev := eval_updated o V theta s q in
  let z := fun e => A y e -' ev *' y e in
  inner o n y y <> 0' ->
  eres2_updated o V theta s q = inner o n z z /' inner o n y y.
Proof.
  intros Hp Hrq Hrn Heig Hrun y ev z.
  assert (E := @C53_eigen_residual K (nat -> K) o L V vecs_laws M Kp r rn2 inU inW setting_equation).
  unfold minus in E. cbn [vecs vdot vadd vscl] in E.
  assert (Hy : forall b, dt b (fun r0 => x r0 +' kopp o 1' *' qsol q r0) = dt b y).
  { intros b. apply (dot_ext o). intros e. unfold y. ring. }
  assert (Hz : forall b, dt b (fun r0 => A (fun r1 => x r1 +' kopp o 1' *' qsol q r1) r0
                 +' kopp o 1' *' (ev *' (x r0 +' kopp o 1' *' qsol q r0))) = dt b z).
  { intros b. apply (dot_ext o). intros e. unfold z, times_v, y.
    rewrite (sum_ext o n (fun l => Am e l *' (x l +' kopp o 1' *' qsol q l)) (fun l => Am e l *' (x l -' qsol q l)))
      by (intros; ring). ring. }
  rewrite !(inner_dot o L). intros Hne.
  specialize (fun K1 K2 => E K1 K2 A x theta s m q setting_ritz).
  rewrite Hz, (dt_sym (fun _ => _) z), Hz, Hy, (dt_sym (fun _ => _) y), Hy in E.
  rewrite <- E; auto.
  - field. exact Hne.
  - intros g v [W1 W2].
    destruct (K_dt g) as [u [Hu Hw]]; try (rewrite Hp; discriminate).
    assert (Hu' : forall b, dt u b = dt g b).
    { intros b. rewrite Hu. unfold Kop. rewrite Hp. destruct (rightQ c) eqn:Hq; [|ring].
      rewrite qsum_sym, qsum_0; [ring|]. apply W2. auto. }
    rewrite Hw, Hp, Hu', (dt_sym x), Hu', (dt_sym g x), W1. cbn [andb]. destruct (rightX c); ring.
  - rewrite Hrn. apply (inner_dot o L).
  - intros u [H _]. exact H.
  - intros u v [U1 U2]. rewrite M_dt. destruct (leftQ c) eqn:Hlq; [|ring].
    rewrite (sum_zero o L); [ring|]. intros j Hj. destruct (Heig eq_refl j Hj) as [lam Hlam].
    rewrite <- A_sym, dt_sym, (dot_ext o n u (A (Q j)) (fun e => Q j e *' lam)) by (intros; rewrite Hlam; ring).
    rewrite (dot_mulr o L), (dt_sym u), U2 by auto. ring.
Qed.

End S.
