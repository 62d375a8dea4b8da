(** C53: the inner iteration.  The vectors and the scalars of the method after any
    number of iterations, and what the recurrences mean. *)
From Coq Require Import List Arith Lia Bool Field.
From Verif Require Import Base ProjModel SpecProj QmrModel SpecQmr.
Import ListNotations.

Set Implicit Arguments.

Section P0.
Context {K E : Type} (o : scal K) (L : laws o) (V : vsp K E) (PL : real_product o V).
Context (M Kp : E -> E) (r : E) (rn2 : K) .
Context (LIN : linear o V M).

Local Notation dt := (vdot V).
Local Notation "0'" := (k0 o). Local Notation "1'" := (k1 o).
Local Notation "a +' b" := (kadd o a b) (at level 50, left associativity).
Local Notation "a -' b" := (ksub o a b) (at level 50, left associativity).
Local Notation "a *' b" := (kmul o a b) (at level 40, left associativity).
Local Notation "a /' b" := (kdiv o a b) (at level 40, left associativity).
Local Notation "-' a" := (kopp o a) (at level 35).

Add Field kf0 : (l_field o L).

Let kz a : kzero o a = false -> a <> 0'.
Proof. intros H F. apply (l_zero o L a) in F. congruence. Qed.
Let kzt a : a <> 0' -> kzero o a = false.
Proof. intros H. destruct (kzero o a) eqn:X; auto. apply (l_zero o L a) in X. contradiction. Qed.

Lemma dt_add_r a b c : dt c (vadd V a b) = dt c a +' dt c b.
Proof. rewrite (p_sym PL), (p_add PL), (p_sym PL a), (p_sym PL b). reflexivity. Qed.
Lemma dt_scl_r k a c : dt c (vscl V k a) = k *' dt c a.
Proof. rewrite (p_sym PL), (p_scl PL), (p_sym PL a). reflexivity. Qed.
Lemma dt_0_r c : dt c (v0 V) = 0'.
Proof. rewrite (p_sym PL). apply (p_0 PL). Qed.

Ltac ex := repeat (rewrite ?(p_add PL), ?(p_scl PL), ?dt_add_r, ?dt_scl_r, ?(p_0 PL), ?dt_0_r).

(** The linear residual, at any stage: Theta^2 M delta + g = r - M sol. *)
Definition residual_form (q : qst K E) : Prop := forall v,
  qth2 q *' dt (M (qdelta q)) v +' dt (qg q) v = dt r v -' dt (M (qsol q)) v.

(** What an update makes of the linear residual: (1 - c^2) S + c^2 g, with
    Theta^2 tau_prev^2 = g'g and tau^2 = tau_prev^2 Theta^2 c^2. *)
Lemma half_residual q q' : residual_form q -> qmr_half o V M q = Some q' ->
  residual_form q' /\
  exists c2, c2 *' (1' +' qth2 q') = 1' /\ qtau2 q <> 0' /\
    qtau2 q' = qtau2 q *' qth2 q' *' c2 /\ dt (qg q') (qg q') = qth2 q' *' qtau2 q /\
    (forall v, dt r v -' dt (M (qsol q')) v
               = (1' -' c2) *' (dt r v -' dt (M (qsol q)) v) +' c2 *' dt (qg q') v).
Proof.
  intros HS. unfold qmr_half.
  destruct (kzero o (dt (qd q) _)) eqn:Z1; [discriminate|].
  destruct (kzero o (qrho q /' _)) eqn:Z2; [discriminate|].
  destruct (kzero o (qtau2 q)) eqn:Z3; [discriminate|].
  cbv zeta. destruct (kzero o (1' +' _)) eqn:Z4; [discriminate|]. injection 1 as <-.
  apply kz in Z1, Z2, Z3, Z4. revert Z4.
  set (al := qrho q /' dt (qd q) (M (qd q))) in *.
  set (g' := vadd V (qg q) (vscl V (-' al) (M (qd q)))).
  set (th2 := dt g' g' /' qtau2 q). intros Z4.
  set (c2 := 1' /' (1' +' th2)).
  assert (Hc : c2 *' (1' +' th2) = 1') by (unfold c2; field; auto).
  assert (Hg : forall v, al *' dt (M (qd q)) v = dt (qg q) v -' dt g' v) by (intros; unfold g'; ex; ring).
  assert (HM : forall v, dt (M (vadd V (vscl V (c2 *' qth2 q) (qdelta q)) (vscl V (al *' c2) (qd q)))) v
             = c2 *' (dt r v -' dt (M (qsol q)) v -' dt g' v)).
  { intros v. rewrite (m_add LIN), !(m_scl LIN).
    transitivity (c2 *' (qth2 q *' dt (M (qdelta q)) v +' al *' dt (M (qd q)) v)); [ring|].
    rewrite Hg. rewrite <- HS. ring. }
  unfold residual_form. cbn [qg qd qrho qdelta qsol qth2 qtau2].
  split.
  - intros v. rewrite (m_add LIN _ (qsol q)), !HM.
    assert (E1 : th2 *' c2 = 1' -' c2) by (rewrite <- Hc; ring).
    transitivity (th2 *' c2 *' (dt r v -' dt (M (qsol q)) v -' dt g' v) +' dt g' v); [ring|].
    rewrite E1. ring.
  - exists c2. split; [exact Hc|]. split; [exact Z3|]. split; [reflexivity|].
    split; [unfold th2; field; exact Z3|].
    intros v. rewrite (m_add LIN _ (qsol q)), HM. ring.
Qed.

Lemma init_residual : residual_form (qmr_init o V Kp r rn2).
Proof. intros v. cbn. rewrite (m_0 LIN). ring. Qed.
Lemma next_residual q : residual_form q -> residual_form (qmr_next o V Kp q).
Proof. intros H v. apply (H v). Qed.

Lemma run_residual n q : qmr_run o V M Kp r rn2 n = Some q -> residual_form q.
Proof.
  revert q. induction n as [|n IH]; intros q; cbn [qmr_run].
  - intros H. apply (half_residual init_residual H).
  - destruct (qmr_run o V M Kp r rn2 n) as [q0|]; [|discriminate]. cbn [bind].
    intros H. apply (half_residual (next_residual (IH _ eq_refl)) H).
Qed.

End P0.
Arguments init_residual {K E o} L {V} M Kp r rn2 LIN v.
Arguments next_residual {K E o V M} Kp {r q} H v.
Arguments run_residual {K E o} L {V} PL {M Kp r rn2} LIN n {q} H v.
Arguments half_residual {K E o} L {V} PL {M r} LIN {q q'} HS H.

Section P.
Context {K E : Type} (o : scal K) (L : laws o) (V : vsp K E) (PL : real_product o V).
Context (M Kp : E -> E) (r : E) (rn2 : K) (U W : E -> Prop).
Context (CE : correction_equation o V M Kp r U W).

Local Notation dt := (vdot V).
Local Notation "0'" := (k0 o). Local Notation "1'" := (k1 o).
Local Notation "a +' b" := (kadd o a b) (at level 50, left associativity).
Local Notation "a -' b" := (ksub o a b) (at level 50, left associativity).
Local Notation "a *' b" := (kmul o a b) (at level 40, left associativity).
Local Notation "a /' b" := (kdiv o a b) (at level 40, left associativity).
Local Notation "-' a" := (kopp o a) (at level 35).

Add Field kf : (l_field o L).

Let kz a : kzero o a = false -> a <> 0'.
Proof. intros H F. apply (l_zero o L a) in F. congruence. Qed.
Let kzt a : a <> 0' -> kzero o a = false.
Proof. intros H. destruct (kzero o a) eqn:X; auto. apply (l_zero o L a) in X. contradiction. Qed.

Let LIN : linear o V M := ce_lin CE.
Let dt_add_r := dt_add_r PL. Let dt_scl_r := dt_scl_r PL. Let dt_0_r := dt_0_r PL.

Ltac ex := repeat (rewrite ?(p_add PL), ?(p_scl PL), ?dt_add_r, ?dt_scl_r, ?(p_0 PL), ?dt_0_r).

(** The vectors of the preconditioned conjugate gradient recurrence. *)
Fixpoint cg (n : nat) : E * E * K :=
  match n with
  | 0 => (r, Kp r, dt r (Kp r))
  | S m => let '(g, d, rho) := cg m in
           let g' := vadd V g (vscl V (-' (rho /' dt d (M d))) (M d)) in
           let rho' := dt g' (Kp g') in
           (g', vadd V (Kp g') (vscl V (rho' /' rho) d), rho')
  end.
Definition G n := fst (fst (cg n)).
Definition D n := snd (fst (cg n)).
Definition Rho n := snd (cg n).
Definition Sg n := dt (D n) (M (D n)).
Definition Al n := Rho n /' Sg n.
Definition good n := forall j, j <= n -> Sg j <> 0' /\ Rho j <> 0'.

Lemma G_S n : G (S n) = vadd V (G n) (vscl V (-' Al n) (M (D n))).
Proof. unfold G, D, Al, Rho, Sg. cbn [cg]. unfold D. destruct (cg n) as [[g d] rh]. reflexivity. Qed.
Lemma D_S n : D (S n) = vadd V (Kp (G (S n))) (vscl V (Rho (S n) /' Rho n) (D n)).
Proof. unfold G, D, Rho. cbn [cg]. destruct (cg n) as [[g d] rh]. reflexivity. Qed.
Lemma Rho_G n : Rho n = dt (G n) (Kp (G n)).
Proof. unfold G, Rho. destruct n; [reflexivity|]. cbn [cg]. destruct (cg n) as [[g d] rh]. reflexivity. Qed.

Lemma in_W_U n : W (G n) /\ U (D n).
Proof.
  induction n as [|n [IW IU]].
  - cbn. split; [apply (ce_r CE)|apply (ce_K CE), (ce_r CE)].
  - assert (W (G (S n))).
    { rewrite G_S. apply (u_add (ce_W CE)); auto. apply (u_scl (ce_W CE)), (ce_M CE), IU. }
    split; auto. rewrite D_S. apply (u_add (ce_U CE)); [apply (ce_K CE); auto|apply (u_scl (ce_U CE)); auto].
Qed.
Let gW n : W (G n) := match in_W_U n with conj a _ => a end.
Let dU n : U (D n) := match in_W_U n with conj _ b => b end.

Lemma good_le n m : m <= n -> good n -> good m.
Proof. intros H Hg j Hj. apply Hg. lia. Qed.

Lemma Al_nz n j : good n -> j <= n -> Al j <> 0'.
Proof.
  intros Hg Hj F. destruct (Hg j Hj) as [A B]. apply B. unfold Al in F.
  replace (Rho j) with (Rho j /' Sg j *' Sg j) by (field; auto). rewrite F. ring.
Qed.

(** M D_j = (G_j - G_{j+1}) / alpha_j *)
Lemma MD n j v : good n -> j <= n -> dt (M (D j)) v = (dt (G j) v -' dt (G (S j)) v) /' Al j.
Proof.
  intros Hg Hj. rewrite G_S. ex. field. eapply Al_nz; eauto.
Qed.

Lemma KG_D v j : dt (Kp (G (S j))) v = dt (D (S j)) v -' Rho (S j) /' Rho j *' dt (D j) v.
Proof. rewrite D_S at 1. ex. ring. Qed.

Lemma conj_inv i :
  (forall j, j < i -> Sg j <> 0' /\ Rho j <> 0') ->
  (forall j, j < i -> dt (G i) (D j) = 0') /\
  (forall j, j < i -> dt (D i) (M (D j)) = 0') /\
  (forall j, j < i -> dt (G i) (Kp (G j)) = 0') /\
  dt (G i) (D i) = Rho i.
Proof.
  induction i as [|i IH].
  - intros _. repeat split; intros; lia.
  - intros Hg.
    destruct IH as [A [B [C F]]]; [intros j Hj; apply Hg; lia|].
    destruct (Hg i (Nat.lt_succ_diag_r i)) as [Si Ri].
    assert (A' : forall j, j < S i -> dt (G (S i)) (D j) = 0').
    { intros j Hj. rewrite G_S. ex.
      rewrite (ce_Msym CE _ _ (dU i) (dU j)).
      destruct (Nat.eq_dec j i) as [->|Hne].
      - rewrite F. unfold Al, Sg. unfold Sg in Si. field. exact Si.
      - rewrite A, B by lia. ring. }
    assert (C' : forall j, j < S i -> dt (G (S i)) (Kp (G j)) = 0').
    { intros j Hj. rewrite (p_sym PL). destruct j as [|j].
      - change (Kp (G 0)) with (D 0). rewrite (p_sym PL). apply A'. lia.
      - rewrite KG_D. rewrite (p_sym PL (D (S j))), (p_sym PL (D j)), !A' by lia. ring. }
    assert (B' : forall j, j < S i -> dt (D (S i)) (M (D j)) = 0').
    { intros j Hj. rewrite (p_sym PL).
      assert (Hgi : good i) by (intros k Hk; apply Hg; lia).
      rewrite D_S, dt_add_r, dt_scl_r.
      assert (X : dt (M (D j)) (Kp (G (S i))) = (dt (G (S i)) (Kp (G j)) -' dt (G (S i)) (Kp (G (S j)))) /' Al j).
      { rewrite (@MD i j) by (auto; lia).
        rewrite <- (ce_Ksym CE _ _ (gW j) (gW (S i))), (p_sym PL (Kp (G j))).
        rewrite <- (ce_Ksym CE _ _ (gW (S j)) (gW (S i))), (p_sym PL (Kp (G (S j)))). reflexivity. }
      rewrite X. clear X.
      assert (Anz := Al_nz Hgi (j := j) ltac:(lia)).
      rewrite (C' j Hj).
      destruct (Nat.eq_dec j i) as [->|Hne].
      - rewrite <- Rho_G. rewrite (p_sym PL (M (D i))). fold (Sg i). unfold Al in *. field.
        repeat split; auto.
      - rewrite (C' (S j)) by lia. rewrite (p_sym PL (M (D j))), B by lia. field. auto. }
    repeat split; auto.
    rewrite D_S, dt_add_r, dt_scl_r, A' by lia. rewrite <- Rho_G. ring.
Qed.

(** The vectors of the run are those of the recurrence, and no breakdown happened. *)
Lemma run_cg n q : qmr_run o V M Kp r rn2 n = Some q ->
  qg q = G (S n) /\ qd q = D n /\ qrho q = Rho n /\ good n.
Proof.
  revert q. induction n as [|n IH]; intros q.
  - cbn [qmr_run]. unfold qmr_half, qmr_init. cbn [qd qrho qg qtau2].
    destruct (kzero o (dt (Kp r) (M (Kp r)))) eqn:Z1; [discriminate|].
    destruct (kzero o (dt r (Kp r) /' _)) eqn:Z2; [discriminate|].
    destruct (kzero o rn2) eqn:Z3; [discriminate|].
    cbv zeta. destruct (kzero o (1' +' _)) eqn:Z4; [discriminate|]. injection 1 as <-.
    cbn [qg qd qrho]. split; [reflexivity|]. split; [reflexivity|]. split; [reflexivity|].
    intros j Hj. replace j with 0 by lia. apply kz in Z1, Z2. split; [exact Z1|].
    intros F. apply Z2. cbn in F. unfold Rho in F. cbn in F. rewrite F. field. exact Z1.
  - cbn [qmr_run]. destruct (qmr_run o V M Kp r rn2 n) as [q0|] eqn:R0; [|discriminate]. cbn [bind].
    destruct (IH q0 eq_refl) as [Hg [Hd [Hr Hgood]]].
    unfold qmr_half, qmr_next. cbn [qd qrho qg qtau2 qdelta qsol qth2 qBeta qDelta qPhi qPsi qGamma].
    rewrite Hg, Hd, Hr. rewrite <- !Rho_G. rewrite <- !D_S.
    destruct (kzero o (dt (D (S n)) _)) eqn:Z1; [discriminate|].
    destruct (kzero o (Rho (S n) /' _)) eqn:Z2; [discriminate|].
    destruct (kzero o (qtau2 q0)) eqn:Z3; [discriminate|].
    cbv zeta. destruct (kzero o (1' +' _)) eqn:Z4; [discriminate|]. injection 1 as <-.
    cbn [qg qd qrho]. split; [rewrite (G_S (S n)); reflexivity|]. split; [reflexivity|]. split; [reflexivity|].
    intros j Hj. destruct (Nat.eq_dec j (S n)) as [->|Hne]; [|apply Hgood; lia].
    apply kz in Z1, Z2. split; [exact Z1|]. intros F. apply Z2. rewrite F. field. exact Z1.
Qed.

Lemma conj_run n i j : good n -> i <= n -> j < i -> dt (D i) (M (D j)) = 0'.
Proof. intros Hg Hi Hj. apply conj_inv; auto. intros k Hk. apply Hg. lia. Qed.

Lemma r_D n k i : good n -> k <= n -> i <= k -> dt (G i) (D k) = Rho k.
Proof.
  intros Hg Hk Hi. remember (k - i) as m eqn:Hm. revert i Hi Hm. induction m as [|m IH]; intros i Hi Hm.
  - replace i with k by lia. apply conj_inv. intros j Hj. apply Hg. lia.
  - assert (X := IH (S i) ltac:(lia) ltac:(lia)). rewrite G_S in X. revert X. ex.
    rewrite (p_sym PL (M (D i))), (@conj_run n k i) by (auto; lia). intros X. rewrite <- X. ring.
Qed.

(** ** The recurrences that follow the Ritz value *)

Definition followed (n : nat) (q : qst K E) : Prop :=
  U (qdelta q) /\ U (qsol q) /\
  qDelta q = dt r (qdelta q) /\ qBeta q = -' dt r (qsol q) /\
  qPhi q = dt (qdelta q) (M (qdelta q)) /\ qGamma q = dt (qsol q) (M (qsol q)) /\
  (exists sol0, qPsi q = dt sol0 (M (qdelta q)) /\
     (forall v, dt (qsol q) v = dt (qdelta q) v +' dt sol0 v) /\ U sol0) /\
  (forall j, n < j -> good j -> dt (D j) (M (qdelta q)) = 0' /\ dt (D j) (M (qsol q)) = 0').

Let Mr a b c : U a -> U b -> U c -> dt c (M (vadd V a b)) = dt c (M a) +' dt c (M b).
Proof. intros. rewrite (p_sym PL), (m_add (ce_lin CE)), (p_sym PL (M a)), (p_sym PL (M b)). reflexivity. Qed.
Let Ms k a c : dt c (M (vscl V k a)) = k *' dt c (M a).
Proof. rewrite (p_sym PL), (m_scl (ce_lin CE)), (p_sym PL (M a)). reflexivity. Qed.
Let Ma a b c : dt c (M (vadd V a b)) = dt c (M a) +' dt c (M b).
Proof. rewrite (p_sym PL), (m_add (ce_lin CE)), (p_sym PL (M a)), (p_sym PL (M b)). reflexivity. Qed.
Let M0 c : dt c (M (v0 V)) = 0'.
Proof. rewrite (p_sym PL). apply (m_0 (ce_lin CE)). Qed.

Ltac exM := repeat (rewrite ?(p_add PL), ?(p_scl PL), ?dt_add_r, ?dt_scl_r, ?(p_0 PL), ?dt_0_r, ?Ma, ?Ms, ?M0).

Lemma run_followed n q : qmr_run o V M Kp r rn2 n = Some q -> followed n q.
Proof.
  revert q. induction n as [|n IH]; intros q Hrun.
  - destruct (run_cg 0 Hrun) as [_ [_ [_ Hgood]]].
    revert Hrun. cbn [qmr_run]. unfold qmr_half, qmr_init.
    cbn [qd qrho qg qtau2 qdelta qsol qth2 qBeta qDelta qPhi qPsi qGamma].
    destruct (kzero o (dt (Kp r) (M (Kp r)))) eqn:Z1; [discriminate|].
    destruct (kzero o (dt r (Kp r) /' _)) eqn:Z2; [discriminate|].
    destruct (kzero o rn2) eqn:Z3; [discriminate|].
    cbv zeta. destruct (kzero o (1' +' _)) eqn:Z4; [discriminate|]. injection 1 as <-.
    apply kz in Z1, Z2, Z3, Z4.
    match goal with |- context [1' /' ?x] => set (c2 := 1' /' x) end.
    unfold followed. cbn [qg qd qrho qdelta qsol qBeta qDelta qPhi qPsi qGamma].
    assert (UD : U (Kp r)) by (apply (dU 0)).
    assert (U0 := u_0 (ce_U CE)).
    assert (Ud : U (vadd V (vscl V (c2 *' 0') (v0 V)) (vscl V (dt r (Kp r) /' dt (Kp r) (M (Kp r)) *' c2) (Kp r)))).
    { apply (u_add (ce_U CE)); apply (u_scl (ce_U CE)); auto. }
    split; [exact Ud|]. split; [apply (u_add (ce_U CE)); auto|].
    split; [exM; ring|]. split; [exM; ring|]. split; [exM; field; auto|]. split; [exM; field; auto|].
    split.
    + exists (v0 V). split; [exM; ring|]. split; [intros; exM; ring|auto].
    + intros j Hj Hg. assert (X : dt (D j) (M (Kp r)) = 0') by (apply (@conj_run j j 0); auto).
      split; exM; rewrite X; ring.
  - destruct (run_cg (S n) Hrun) as [_ [_ [_ Hgood]]].
    revert Hrun. cbn [qmr_run]. destruct (qmr_run o V M Kp r rn2 n) as [q0|] eqn:R0; [|discriminate]. cbn [bind].
    destruct (run_cg n R0) as [Hg [Hd [Hr _]]].
    destruct (IH q0 eq_refl) as [Ud [Us [HDe [HBe [HPh [HGa [[s0 [HPs [Hs0 Us0]]] Hcj]]]]]]].
    unfold qmr_half, qmr_next. cbn [qd qrho qg qtau2 qdelta qsol qth2 qBeta qDelta qPhi qPsi qGamma].
    rewrite Hg, Hd, Hr. rewrite <- !Rho_G. rewrite <- !D_S.
    destruct (kzero o (dt (D (S n)) _)) eqn:Z1; [discriminate|].
    destruct (kzero o (Rho (S n) /' _)) eqn:Z2; [discriminate|].
    destruct (kzero o (qtau2 q0)) eqn:Z3; [discriminate|].
    cbv zeta. destruct (kzero o (1' +' _)) eqn:Z4; [discriminate|]. injection 1 as <-.
    apply kz in Z1, Z2, Z3, Z4.
    match goal with |- context [1' /' ?x] => set (c2 := 1' /' x) end.
    unfold followed. cbn [qg qd qrho qdelta qsol qBeta qDelta qPhi qPsi qGamma].
    set (gm := c2 *' qth2 q0). set (et := Rho (S n) /' dt (D (S n)) (M (D (S n))) *' c2).
    destruct (Hcj (S n) (Nat.lt_succ_diag_r n) Hgood) as [Cd Cs].
    assert (Cd' : dt (qdelta q0) (M (D (S n))) = 0').
    { rewrite <- (ce_Msym CE _ _ Ud (dU (S n))), (p_sym PL). exact Cd. }
    assert (Cs' : dt (qsol q0) (M (D (S n))) = 0').
    { rewrite <- (ce_Msym CE _ _ Us (dU (S n))), (p_sym PL). exact Cs. }
    assert (HrD : dt r (D (S n)) = Rho (S n)) by (apply (@r_D (S n) (S n) 0); auto; lia).
    assert (Ud1 : U (vadd V (vscl V gm (qdelta q0)) (vscl V et (D (S n))))).
    { apply (u_add (ce_U CE)); apply (u_scl (ce_U CE)); auto. }
    assert (HP : dt (qsol q0) (M (vadd V (vscl V gm (qdelta q0)) (vscl V et (D (S n))))) = gm *' qPsi q0 +' gm *' qPhi q0).
    { exM. rewrite Cs', HPs, HPh, Hs0. ring. }
    assert (HPf : dt (vadd V (vscl V gm (qdelta q0)) (vscl V et (D (S n))))
             (M (vadd V (vscl V gm (qdelta q0)) (vscl V et (D (S n)))))
             = gm *' gm *' qPhi q0 +' et *' et *' dt (D (S n)) (M (D (S n)))).
    { exM. rewrite Cd', Cd, HPh. ring. }
    split; [exact Ud1|]. split; [apply (u_add (ce_U CE)); auto|].
    split; [exM; rewrite HrD, HDe; ring|].
    split; [exM; rewrite HrD, HDe, HBe; ring|].
    split; [rewrite HPf; reflexivity|].
    split.
    { rewrite Ma, (p_add PL), (p_add PL (vadd V _ _)).
      rewrite HPf. rewrite <- (ce_Msym CE _ _ Ud1 Us), (p_sym PL (M _) (qsol q0)), HP, HGa. ring. }
    split; [exists (qsol q0); split; [rewrite HP; reflexivity|]; split; [intros; apply (p_add PL)|auto]|].
    intros j Hj Hgj.
    assert (X : dt (D j) (M (D (S n))) = 0') by (apply (@conj_run j j (S n)); auto).
    destruct (Hcj j ltac:(lia) Hgj) as [Xd Xs].
    split; exM; rewrite X, Xd, ?Xs; ring.
Qed.

(** ** C53: the value followed is the Rayleigh quotient of the corrected vector

    x a unit vector, theta its Rayleigh quotient, r its residual; the directions
    are orthogonal to x, and on them the operator is A - shift I.  After any number
    of iterations, with any symmetric preconditioner. *)
Theorem C53_ritz_value A x theta s n q :
  ritz o V A x r theta ->
  (forall u, U u -> dt x u = 0') ->
  (forall u v, U u -> U v -> dt (M u) v = dt (A u) v -' s *' dt u v) ->
  qmr_run o V M Kp r rn2 n = Some q ->
  bnorm o V q = dt (minus o V x (qsol q)) (minus o V x (qsol q)) /\
  (bnorm o V q <> 0' -> rayleigh o V A (minus o V x (qsol q)) (eval_updated o V theta s q)).
Proof.
  intros RZ Hx HM Hrun.
  destruct (run_followed n Hrun) as [Ud [Us [_ [HBe [_ [HGa _]]]]]].
  assert (Hxs := Hx _ Us). assert (Hsx : dt (qsol q) x = 0') by (rewrite (p_sym PL); exact Hxs).
  assert (HA : dt (qsol q) (A (qsol q)) = qGamma q +' s *' dt (qsol q) (qsol q)).
  { rewrite HGa, (p_sym PL (qsol q) (M _)), HM by auto. rewrite (p_sym PL (A _)). ring. }
  assert (HrS : dt (A x) (qsol q) = -' qBeta q).
  { rewrite HBe, (rz_r RZ), Hxs. ring. }
  assert (HAs : dt x (A (qsol q)) = -' qBeta q) by (rewrite <- (rz_sym RZ); exact HrS).
  assert (E1 : bnorm o V q = dt (minus o V x (qsol q)) (minus o V x (qsol q))).
  { unfold bnorm, minus. ex. rewrite Hxs, Hsx, (rz_unit RZ). ring. }
  split; [exact E1|]. intros Hb. unfold rayleigh. rewrite <- E1.
  assert (E2 : dt (minus o V x (qsol q)) (A (minus o V x (qsol q)))
           = theta +' (1' +' 1') *' qBeta q +' qGamma q +' s *' dt (qsol q) (qsol q)).
  { rewrite <- (rz_sym RZ). unfold minus.
    rewrite (m_add (rz_lin RZ)), (m_scl (rz_lin RZ)). ex.
    rewrite HrS, (rz_sym RZ (qsol q) x), (rz_sym RZ (qsol q) (qsol q)).
    rewrite (p_sym PL (qsol q) (A x)), HrS, HA.
    rewrite (rz_sym RZ x x), (rz_theta RZ). ring. }
  rewrite E2. unfold eval_updated. set (b := bnorm o V q) in *.
  replace (dt (qsol q) (qsol q)) with (b -' 1') by (unfold b, bnorm; ring).
  field. exact Hb.
Qed.

(** With a mass matrix: so it is whenever the directions are orthogonal to x in the inner
    product of B (the right projection I - x x'B of the comment of inner_solve.c 59) and
    the operator on them is A - shift B. *)
Theorem C53_mass_ritz_value A B x theta s n q :
  ritz_mass o V A B x r theta ->
  (forall u, U u -> dt x (B u) = 0') ->
  (forall u v, U u -> U v -> dt (M u) v = dt (A u) v -' s *' dt (B u) v) ->
  qmr_run o V M Kp r rn2 n = Some q ->
  let y := minus o V x (qsol q) in
  bnorm_mass o V B q = dt y (B y) /\
  (bnorm_mass o V B q <> 0' -> rayleigh_mass o V A B y (eval_updated_mass o V B theta s q)).
Proof.
  intros RZ Hx HM Hrun y.
  destruct (run_followed n Hrun) as [Ud [Us [_ [HBe [_ [HGa _]]]]]].
  assert (Hxs := Hx _ Us).
  assert (HBx : dt (B x) (qsol q) = 0') by (rewrite (rm_symB RZ); exact Hxs).
  assert (Hsx : dt (qsol q) (B x) = 0') by (rewrite (p_sym PL); exact HBx).
  assert (HA : dt (qsol q) (A (qsol q)) = qGamma q +' s *' dt (qsol q) (B (qsol q))).
  { rewrite HGa, (p_sym PL (qsol q) (M _)), HM by auto. rewrite (p_sym PL (A _)), (p_sym PL (B _)). ring. }
  assert (HrS : dt (A x) (qsol q) = -' qBeta q).
  { rewrite HBe, (rm_r RZ), HBx. ring. }
  assert (E1 : bnorm_mass o V B q = dt y (B y)).
  { rewrite <- (rm_symB RZ). unfold bnorm_mass, y, minus.
    rewrite (m_add (rm_linB RZ)), (m_scl (rm_linB RZ)). ex.
    rewrite HBx, (rm_symB RZ x x), (rm_unit RZ), !(rm_symB RZ (qsol q)), Hsx. ring. }
  split; [exact E1|]. intros Hb. unfold rayleigh_mass. rewrite <- E1.
  assert (E2 : dt y (A y) = theta +' (1' +' 1') *' qBeta q +' qGamma q +' s *' dt (qsol q) (B (qsol q))).
  { rewrite <- (rm_sym RZ). unfold y, minus.
    rewrite (m_add (rm_lin RZ)), (m_scl (rm_lin RZ)). ex.
    rewrite HrS, (rm_sym RZ (qsol q) x), (rm_sym RZ (qsol q) (qsol q)).
    rewrite (p_sym PL (qsol q) (A x)), HrS, HA.
    rewrite (rm_sym RZ x x), (rm_theta RZ). ring. }
  rewrite E2. unfold eval_updated_mass. set (b := bnorm_mass o V B q) in *.
  replace (dt (qsol q) (B (qsol q))) with (b -' 1') by (unfold b, bnorm_mass; ring).
  field. exact Hb.
Qed.

(** ** C53: without preconditioner, tau is the norm of the linear residual *)

Definition lin_res (q : qst K E) : E := minus o V r (M (qsol q)).
Lemma lin_res_dt q v : dt (lin_res q) v = dt r v -' dt (M (qsol q)) v.
Proof. unfold lin_res, minus. ex. ring. Qed.

Section NoPrec.
Context (Kid : forall g v, W g -> dt (Kp g) v = dt g v).
Context (Hrn : rn2 = dt r r).

Lemma G_orth n i j : good n -> i <= S n -> j < i -> dt (G i) (G j) = 0'.
Proof.
  intros Hg Hi Hj. rewrite (p_sym PL), <- (Kid (G i) (gW j)), (p_sym PL).
  apply conj_inv; auto. intros k Hk. apply Hg. lia.
Qed.

(** The residual is a combination of the first G's. *)
Lemma run_tau n q : qmr_run o V M Kp r rn2 n = Some q ->
  qtau2 q = dt (lin_res q) (lin_res q) /\
  (forall j m, S n < j -> j <= S m -> good m -> dt (lin_res q) (G j) = 0').
Proof.
  revert q. induction n as [|n IH]; intros q Hrun.
  - destruct (run_cg 0 Hrun) as [HgG [_ [_ Hgood]]].
    cbn [qmr_run] in Hrun. destruct (half_residual L PL LIN (init_residual L M Kp r rn2 LIN) Hrun) as [_ [c2 [Hc [_ [Ht [Hgg HS]]]]]].
    assert (HS' : forall v, dt (lin_res q) v = (1' -' c2) *' dt r v +' c2 *' dt (G 1) v).
    { intros v. rewrite lin_res_dt, HS, HgG. cbn [qmr_init qsol]. rewrite (m_0 (ce_lin CE)). ring. }
    cbn [qmr_init qtau2] in Ht, Hgg. rewrite HgG in Hgg.
    assert (O : dt r (G 1) = 0') by (rewrite (p_sym PL); apply (@G_orth 0 1 0); auto).
    split.
    + rewrite HS', (p_sym PL r), (p_sym PL (G 1)), !HS', Hgg, (p_sym PL (G 1) r), O, Ht, <- Hrn.
      replace (qth2 q *' c2) with (1' -' c2) by (rewrite <- Hc; ring).
      transitivity (rn2 *' ((1' -' c2) *' (1' -' c2) +' c2 *' (qth2 q *' c2))); [|ring].
      replace (qth2 q *' c2) with (1' -' c2) by (rewrite <- Hc; ring).
      transitivity (rn2 *' (qth2 q *' c2)); [ring|].
      replace (qth2 q *' c2) with (1' -' c2) by (rewrite <- Hc; ring). ring.
    + intros j m Hj Hjm Hg. rewrite HS'.
      rewrite (p_sym PL (G 1)), (@G_orth m j 1) by (auto; lia).
      change r with (G 0). rewrite (p_sym PL (G 0)), (@G_orth m j 0) by (auto; lia). ring.
  - destruct (run_cg (S n) Hrun) as [HgG [_ [_ Hgood]]].
    cbn [qmr_run] in Hrun. destruct (qmr_run o V M Kp r rn2 n) as [q0|] eqn:R0; [|discriminate]. cbn [bind] in Hrun.
    destruct (IH _ eq_refl) as [IT IO].
    destruct (half_residual L PL LIN (next_residual Kp (run_residual L PL LIN n R0)) Hrun) as [_ [c2 [Hc [_ [Ht [Hgg HS]]]]]].
    assert (HS' : forall v, dt (lin_res q) v = (1' -' c2) *' dt (lin_res q0) v +' c2 *' dt (G (S (S n))) v).
    { intros v. rewrite !lin_res_dt, HS, HgG. reflexivity. }
    cbn [qmr_next qtau2] in Ht, Hgg. rewrite HgG in Hgg.
    assert (O : dt (lin_res q0) (G (S (S n))) = 0') by (apply (IO _ (S n)); auto; lia).
    split.
    + rewrite HS', (p_sym PL (lin_res q0)), (p_sym PL (G (S (S n)))), !HS', Hgg, (p_sym PL (G (S (S n))) (lin_res q0)), O, Ht, <- IT.
      transitivity (qtau2 q0 *' (qth2 q *' c2)); [ring|].
      transitivity (qtau2 q0 *' ((1' -' c2) *' (1' -' c2) +' c2 *' (qth2 q *' c2))); [|ring].
      replace (qth2 q *' c2) with (1' -' c2) by (rewrite <- Hc; ring). ring.
    + intros j m Hj Hjm Hg. rewrite HS'.
      rewrite (IO j m) by (auto; lia). rewrite (p_sym PL (G (S (S n)))), (@G_orth m j (S (S n))) by (auto; lia). ring.
Qed.

Theorem C53_linear_residual n q :
  qmr_run o V M Kp r rn2 n = Some q ->
  qtau2 q = dt (minus o V r (M (qsol q))) (minus o V r (M (qsol q))).
Proof. intros H. apply (run_tau n H). Qed.

(** ** C53: and the residual norm followed is that of the corrected vector *)
Theorem C53_eigen_residual A x theta s n q :
  ritz o V A x r theta ->
  (forall u, U u -> dt x u = 0') ->
  (forall u v, U u -> dt (M u) v = dt (A u) v -' s *' dt u v -' (dt x (A u) -' s *' dt x u) *' dt x v) ->
  qmr_run o V M Kp r rn2 n = Some q ->
  let y := minus o V x (qsol q) in
  let z := minus o V (A y) (vscl V (eval_updated o V theta s q) y) in
  dt y y <> 0' ->
  eres2_updated o V theta s q *' dt y y = dt z z.
Proof.
  intros RZ Hx HM Hrun y z Hy.
  assert (HM2 : forall u v, U u -> U v -> dt (M u) v = dt (A u) v -' s *' dt u v).
  { intros u v Hu Hv. rewrite HM by auto. rewrite (Hx v Hv). ring. }
  destruct (C53_ritz_value s n RZ Hx HM2 Hrun) as [Eb ER]. fold y in Eb, ER.
  rewrite <- Eb in Hy. specialize (ER Hy). unfold rayleigh in ER. rewrite <- Eb in ER.
  destruct (run_followed n Hrun) as [Ud [Us [_ [HBe _]]]].
  assert (HT := C53_linear_residual n Hrun). fold (lin_res q) in HT.
  assert (Hxs := Hx _ Us).
  assert (HrS : dt (A x) (qsol q) = -' qBeta q).
  { rewrite HBe, (rz_r RZ), Hxs. ring. }
  assert (Hxr : dt x r = 0').
  { rewrite (p_sym PL), (rz_r RZ), (p_sym PL (A x)), (rz_theta RZ), (rz_unit RZ). ring. }
  set (f := theta -' s +' qBeta q).
  assert (HF : forall v, dt (A y) v -' s *' dt y v = dt (lin_res q) v +' f *' dt x v).
  { intros v. rewrite lin_res_dt, HM by auto. unfold y, minus.
    rewrite (m_add (rz_lin RZ)), (m_scl (rz_lin RZ)). ex.
    rewrite Hxs, <- (rz_sym RZ x), HrS.
    rewrite (rz_r RZ). unfold f. ring. }
  assert (HxS : dt x (lin_res q) = 0').
  { rewrite (p_sym PL), lin_res_dt, (p_sym PL r), Hxr, HM by auto.
    rewrite (rz_unit RZ), Hxs, (p_sym PL (A _)), (p_sym PL (qsol q)), Hxs. ring. }
  set (e := eval_updated o V theta s q) in *.
  assert (Hz : forall v, dt z v = dt (lin_res q) v +' f *' dt x v -' (e -' s) *' dt y v).
  { intros v. rewrite <- HF. unfold z, minus. ex. ring. }
  assert (HyS : dt (lin_res q) y +' f *' dt x y = (e -' s) *' bnorm o V q).
  { rewrite <- HF, <- Eb. rewrite (p_sym PL (A y)), <- ER. ring. }
  rewrite Hz, (p_sym PL _ z), (p_sym PL x z), (p_sym PL y z), !Hz, <- HT, HxS.
  rewrite (p_sym PL (lin_res q) x), HxS, (rz_unit RZ), <- Eb.
  rewrite (p_sym PL y (lin_res q)), (p_sym PL y x).
  transitivity (qtau2 q +' f *' f -' (e -' s) *' (e -' s) *' bnorm o V q).
  - unfold eres2_updated. fold e. fold f. field. exact Hy.
  - transitivity (qtau2 q +' f *' f -' (e -' s) *' (dt (lin_res q) y +' f *' dt x y)
                  -' (e -' s) *' (dt (lin_res q) y +' f *' dt x y) +' (e -' s) *' (e -' s) *' bnorm o V q).
    + rewrite HyS. ring.
    + ring.
Qed.

End NoPrec.

(** ** C53: what the inner iteration returns *)

Lemma loop_cases fuel : forall n q stop,
  (n = 0 -> q = qmr_init o V Kp r rn2) ->
  (forall m, n = S m -> exists q0, qmr_run o V M Kp r rn2 m = Some q0 /\ q = qmr_next o V Kp q0) ->
  let out := qmr_loop o V M Kp fuel n stop r q in
  (fuel = 0 /\ out = qsol q) \/ (n = 0 /\ qmr_run o V M Kp r rn2 0 = None /\ out = r) \/
  exists k qk, qmr_run o V M Kp r rn2 k = Some qk /\ out = qsol qk /\ k < n + fuel.
Proof.
  induction fuel as [|fuel IH]; intros n q stop H0 HS out; [left; auto|]. right.
  assert (Hrun : qmr_run o V M Kp r rn2 n = qmr_half o V M q).
  { destruct n as [|m]; [rewrite (H0 eq_refl); reflexivity|].
    destruct (HS m eq_refl) as [q0 [R0 ->]]. cbn [qmr_run]. rewrite R0. reflexivity. }
  subst out. cbn [qmr_loop].
  destruct (qmr_half o V M q) as [q1|] eqn:Hh.
  - assert (Hdone : exists k qk, qmr_run o V M Kp r rn2 k = Some qk /\ qsol q1 = qsol qk /\ k < n + S fuel)
      by (exists n, q1; repeat split; auto; lia).
    destruct (stop n q1); [right; exact Hdone|].
    destruct (n + 1 <? n + S fuel) eqn:Hlt; [|right; exact Hdone].
    apply Nat.ltb_lt in Hlt.
    destruct (IH (S n) (qmr_next o V Kp q1) stop) as [[F _]|[[F _]|[k [qk [A [B C]]]]]]; try lia.
    + intros m Hm. injection Hm as <-. exists q1. auto.
    + right. exists k, qk. repeat split; auto. lia.
  - destruct n as [|m]; [left; auto|]. right. cbn [Nat.eqb].
    destruct (HS m eq_refl) as [q0 [R0 ->]]. exists m, q0. repeat split; auto. lia.
Qed.

(** Whatever the tests that stop the loop: zero if no iteration is allowed, the
    residual itself if the first iteration breaks down, and otherwise the iterate
    of the method after some number of complete iterations. *)
Theorem C53_returned maxIts stop :
  let out := inner_qmr o V M Kp maxIts stop r rn2 in
  (maxIts = 0 /\ out = v0 V) \/ (qmr_run o V M Kp r rn2 0 = None /\ out = r) \/
  exists k q, qmr_run o V M Kp r rn2 k = Some q /\ out = qsol q /\ k < maxIts.
Proof.
  unfold inner_qmr. destruct (@loop_cases maxIts 0 (qmr_init o V Kp r rn2) stop) as [[A B]|[[A [B C]]|H]]; auto.
  intros; discriminate.
Qed.

End P.
