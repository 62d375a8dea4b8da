(** C53, continued: how far tau can be from the linear residual with a
    preconditioner, and cases. *)
From Coq Require Import List Arith Lia Bool Reals Lra QArith Qcanon.
From Verif Require Import Base ProjModel SpecProj PropsProj QmrModel SpecQmr PropsQmr PropsQmr2 PropsExtract2.
Import ListNotations.
Local Open Scope nat_scope.
Set Implicit Arguments.

Section Bound.
Context {E : Type} (V : vsp R E) (PL : real_product Rs V).
Context (pos : forall v, (0 <= vdot V v v)%R).
Context (M Kp : E -> E) (LIN : linear Rs V M) (r : E).
Local Notation dt := (vdot V).
Local Notation lres q := (minus Rs V r (M (qsol q))).

Lemma lres_dt (q : qst R E) v : dt (lres q) v = (dt r v - dt (M (qsol q)) v)%R.
Proof. unfold minus. rewrite (p_add PL), (p_scl PL). cbn. lra. Qed.

Lemma half_bound q q' (m : R) : (1 <= m)%R ->
  residual_form Rs V M r q -> qmr_half Rs V M q = Some q' -> (0 < qtau2 q)%R ->
  (dt (lres q) (lres q) <= m * qtau2 q)%R ->
  (dt (lres q') (lres q') <= (m + 1) * qtau2 q')%R /\ (0 <= qtau2 q' <= qtau2 q)%R.
Proof.
  intros Hm HS Hh Ht HI.
  destruct (half_residual Rs_laws PL LIN HS Hh) as [_ [c2 [Hc [_ [Ht' [Hgg Hv]]]]]].
  cbn [kadd kmul ksub k1 k0 Rs] in *.
  set (t := qth2 q') in *. set (T := qtau2 q) in *. set (S := lres q) in *. set (g := qg q') in *.
  assert (Hv' : forall v, dt (lres q') v = ((1 - c2) * dt S v + c2 * dt g v)%R).
  { intros v. rewrite lres_dt, Hv. unfold S. rewrite lres_dt. reflexivity. }
  assert (Htpos : (0 <= t)%R).
  { assert (X := pos g). rewrite Hgg in X. destruct (Rle_or_lt 0 t); auto. exfalso.
    assert (t * T < 0)%R by nra. lra. }
  assert (Hcpos : (0 < c2)%R).
  { destruct (Rle_or_lt c2 0); auto. exfalso. nra. }
  assert (E1 : (1 - c2 = t * c2)%R) by lra.
  assert (Hw : dt (lres q') (lres q') =
     ((1 - c2) * (1 - c2) * dt S S + 2 * ((1 - c2) * c2) * dt S g + c2 * c2 * dt g g)%R).
  { rewrite Hv', (p_sym PL S (lres q')), (p_sym PL g (lres q')), !Hv', (p_sym PL g S). ring. }
  (* |(1-c2) S - m c2 g|^2 >= 0 *)
  assert (P := pos (vadd V (vscl V (1 - c2)%R S) (vscl V (- (m * c2))%R g))).
  rewrite (p_add PL), !(p_scl PL), (p_sym PL S (vadd V _ _)), (p_sym PL g (vadd V _ _)), !(p_add PL), !(p_scl PL), (p_sym PL g S) in P.
  cbn [kadd kmul ksub k1 k0 Rs] in P.
  set (a := dt S S) in *. set (b := dt S g) in *. set (d := dt g g) in *. set (e := (1 - c2)%R) in *.
  assert (P2 : (2 * m * (e * c2) * b <= e * e * a + m * m * (c2 * c2) * d)%R) by nra.
  assert (Q1 : (m * (e * e * a + 2 * (e * c2) * b + c2 * c2 * d) <= (m + 1) * (e * e * a + m * (c2 * c2) * d))%R) by nra.
  assert (Q2 : (e * e * a <= e * e * (m * T))%R) by (apply Rmult_le_compat_l; [nra|exact HI]).
  assert (Q3 : (e * e * T + c2 * c2 * d = qtau2 q')%R).
  { rewrite Hgg, Ht', E1. replace (t * c2 * (t * c2) * T + c2 * c2 * (t * T))%R with (T * t * c2 * (c2 * (1 + t)))%R by ring.
    rewrite Hc. ring. }
  split.
  - rewrite Hw. apply Rmult_le_reg_l with m; [lra|].
    eapply Rle_trans; [exact Q1|].
    rewrite <- Q3. clear - Q2 Hm. nra.
  - rewrite Ht'. assert (0 <= t * c2 <= 1)%R by nra. split; nra.
Qed.

(** ** C53: the linear residual is at most sqrt (number of iterations + 1) tau

    For any linear operator and any preconditioner: after the update of iteration
    number n (the first one is number 0), |r - M sol| <= sqrt (n + 2) tau, and tau
    does not grow. *)
Theorem C53_linear_residual_bound n q :
  qmr_run Rs V M Kp r (dt r r) n = Some q ->
  (dt (lres q) (lres q) <= INR (n + 2) * qtau2 q)%R /\ (0 <= qtau2 q <= dt r r)%R.
Proof.
  revert q. induction n as [|n IH]; intros q Hrun.
  - cbn [qmr_run] in Hrun.
    assert (Hp : (0 < dt r r)%R).
    { destruct (Rle_lt_or_eq_dec _ _ (pos r)) as [H|H]; auto. exfalso.
      revert Hrun. unfold qmr_half. cbn [qmr_init qtau2]. rewrite <- H.
      replace (kzero Rs 0%R) with true by (cbn; destruct (Req_EM_T 0 0); [reflexivity|lra]).
      destruct (kzero Rs _); [discriminate|]. destruct (kzero Rs _); discriminate. }
    destruct (@half_bound _ q 1%R (Rle_refl 1) (init_residual Rs_laws M Kp r (dt r r) LIN) Hrun) as [A B].
    + exact Hp.
    + assert (X : forall v, dt (lres (qmr_init Rs V Kp r (dt r r))) v = dt r v).
      { intros v. rewrite lres_dt. cbn [qmr_init qsol]. rewrite (m_0 LIN). cbn. lra. }
      rewrite X, (p_sym PL), X. cbn [qmr_init qtau2]. lra.
    + split; [|exact B]. replace (INR (0 + 2)) with (1 + 1)%R by (cbn; lra). exact A.
  - cbn [qmr_run] in Hrun. destruct (qmr_run Rs V M Kp r (dt r r) n) as [q0|] eqn:R0; [|discriminate].
    cbn [bind] in Hrun. destruct (IH q0 eq_refl) as [IA IB].
    assert (Hp : (0 < qtau2 q0)%R).
    { destruct (Rle_lt_or_eq_dec 0 (qtau2 q0)) as [H|H]; [lra|auto|]. exfalso.
      revert Hrun. unfold qmr_half. cbn [qmr_next qtau2]. rewrite <- H.
      replace (kzero Rs 0%R) with true by (cbn; destruct (Req_EM_T 0 0); [reflexivity|lra]).
      destruct (kzero Rs _); [discriminate|]. destruct (kzero Rs _); discriminate. }
    destruct (@half_bound (qmr_next Rs V Kp q0) q (INR (n + 2)) ) as [A B]; auto.
    + rewrite plus_INR. cbn. assert (X := pos_INR n). lra.
    + apply next_residual. apply (run_residual Rs_laws PL LIN n R0).
    + split; [replace (INR (S n + 2)) with (INR (n + 2) + 1)%R by (replace (S n + 2) with (S (n + 2)) by lia; rewrite (S_INR (n + 2)); lra); exact A|].
      cbn [qmr_next qtau2] in B. lra.
Qed.

End Bound.

(** ** C53: the same for the solver, whatever its projections and preconditioner *)
Theorem C53_solver_residual_bound solve c n k Am Kinv X Q hat numLocked numConverged blockSize i shift theta r M Kp m q :
  inner_setting Rs solve c n k Am Kinv X Q hat numLocked numConverged blockSize i shift theta r M Kp ->
  qmr_run Rs (vecs Rs n) M Kp r (inner Rs n r r) m = Some q ->
  let d := fun e => (r e - M (qsol q) e)%R in
  (inner Rs n d d <= INR (m + 2) * qtau2 q)%R /\ (0 <= qtau2 q <= inner Rs n r r)%R.
Proof.
  intros IS Hrun d.
  assert (real : forall a : R, kconj Rs a = a) by reflexivity.
  assert (PLv := vecs_laws Rs_laws real n).
  assert (HP : forall v, (0 <= vdot (vecs Rs n) v v)%R).
  { intros v. cbn [vecs vdot]. unfold dot. assert (Z : (sum Rs n (fun _ => 0) <= sum Rs n (fun r0 => kmul Rs (kconj Rs (v r0)) (v r0)))%R).
    { apply sum_le. intros e _. cbn. nra. }
    assert (Z0 : sum Rs n (fun _ => 0%R) = 0%R) by (apply (PropsProj.sum_zero Rs Rs_laws); reflexivity). lra. }
  rewrite !(inner_dot Rs Rs_laws) in *.
  destruct (@C53_linear_residual_bound _ _ PLv HP M Kp (M_lin Rs_laws real IS) r m q Hrun) as [A B].
  split; [|exact B].
  unfold minus in A. cbn [vecs vdot vadd vscl] in A.
  assert (Hd : forall b, dot Rs n b (fun r0 => kadd Rs (r r0) (kmul Rs (kopp Rs (k1 Rs)) (M (qsol q) r0))) = dot Rs n b d).
  { intros b. apply (PropsProj.dot_ext Rs). intros e. unfold d. cbn. lra. }
  rewrite Hd, (dt_sym Rs_laws real), Hd in A. exact A.
Qed.

(** The hypotheses are met: the plane, the matrix diag(1,3), r = (1,1). *)
Example C53_case_bound :
  let V := Vsp (0, 0)%R (fun a b : R * R => (fst a + fst b, snd a + snd b)%R)
    (fun k a => (k * fst a, k * snd a)%R) (fun a b => (fst a * fst b + snd a * snd b)%R) in
  let M := fun a : R * R => (fst a, 3 * snd a)%R in
  let r := (1, 1)%R in
  real_product Rs V /\ (forall v, (0 <= vdot V v v)%R) /\ linear Rs V M /\
  exists q, qmr_run Rs V M (fun g => g) r (vdot V r r) 0 = Some q /\ (0 < qtau2 q)%R.
Proof.
  cbv zeta. split; [split; intros; cbn; ring|]. split; [intros; cbn; nra|]. split; [split; intros; cbn; ring|].
  cbn [qmr_run]. unfold qmr_half, qmr_init.
  cbn [qd qg qrho qtau2 qdelta qsol qth2 qBeta qDelta qPhi qPsi qGamma vdot vadd vscl v0 fst snd
       kzero kadd kmul ksub kdiv kopp k0 k1 Rs].
  destruct (Req_EM_T (1 * 1 + 1 * (3 * 1)) 0); [lra|].
  destruct (Req_EM_T ((1 * 1 + 1 * 1) / (1 * 1 + 1 * (3 * 1))) 0); [lra|].
  destruct (Req_EM_T (1 * 1 + 1 * 1) 0); [lra|]. cbv zeta.
  match goal with |- context [Req_EM_T (1 + ?z / _) 0] => assert (Z : z = (1 / 2)%R) by lra; rewrite Z end.
  match goal with |- context [Req_EM_T ?z 0] => assert (Z1 : z = (5 / 4)%R) by lra; rewrite !Z1; destruct (Req_EM_T (5 / 4) 0); [lra|] end.
  eexists. split; [reflexivity|]. cbn [qtau2]. lra.
Qed.
