(** C52: the theorems. *)
From Coq Require Import List Arith Bool Lia Field.
From Verif Require Import Base ProjModel SpecProj MatAlg ExtractModel SpecExtract PropsExtract
  ReprojModel SpecReproj PropsReproj StepModel SpecStep PropsStep.
Import ListNotations.

Section Props.
Context {K : Type} (o : scal K) (L : laws o).
Notation mx := (@mx K).
Add Field Kstep2 : (l_field o L).
Context (N : nat) (A B : mx) (nc : nat) (HA : hermitian o N A) (HB : hermitian o N B).

Lemma start_good s : start o N B nc s -> good o N A B nc s.
Proof.
  intros (H1 & H2 & H3). unfold good. rewrite H1, H2, Nat.add_0_r.
  split; [intros i j _ Hj; lia|]. split; [intros i j _ Hj; lia|]. split; [intros i j _ Hj; lia|].
  split; [exact H3|]. split; [intros i j _ Hj; lia|]. split; [intros i j Hj; lia|].
  split; [|intros i Hi; lia]. split; [intros i j _ Hj; lia|intros i j _ Hj; lia].
Qed.

Lemma step_good s s' : step o N A B nc s s' -> good o N A B nc s -> good o N A B nc s'.
Proof.
  intros H Hg. destruct H as [LK f t s bs D s' HL Hf E|LK f t s bs D s' HL Hf E|LK t s s' HL E
    |LK f t ch s ipB np X ip perm hperm s' HL Hf Hr Hs Hp Ht E|LK f t ch s ipB np X ip m ok perm hperm s' HL Hf Hr Hs [Hp Ht] E].
  - exact (grow_good o L LK f N A B nc t s (sn s) bs D s' HA Hf HL (or_intror eq_refl) Hg E).
  - exact (grow_good o L LK f N A B nc t s 0 bs D s' HA Hf HL (or_introl eq_refl) Hg E).
  - exact (reproject_good o L LK N A B nc t s s' HA HL Hg E).
  - destruct Hr as (sk & sm & pv & li & cn & Er).
    exact (restart_soft_good o L LK f N A B nc t ch s sk sm pv ipB li cn np X ip perm hperm s' HA HB HL Hf Hg Er Hs Hp Ht E).
  - destruct Hr as (sk & sm & pv & li & cn & Er).
    exact (restart_lock_good o L LK f N A B nc t ch s sk sm pv ipB li cn np X ip m ok perm hperm s' HA HB HL Hf Hg Er Hs Hp Ht E).
Qed.

(** After any history the basis and what goes with it are consistent. *)
Theorem C52_every_history s : reached o N A B nc s -> good o N A B nc s.
Proof.
  intros (s0 & H0 & Hs). induction Hs as [s|s s' s'' Hs IH Hst]; [exact (start_good s H0)|].
  exact (step_good _ _ Hst (IH H0)).
Qed.

(** What is locked: the vectors are orthonormal together with the constraints, each
    value is the Rayleigh quotient of its vector, and each norm that of its residual. *)
Theorem C52_locked s : reached o N A B nc s ->
  orthonormal_in o N (nc + slk s) B (sE s) /\
  forall i, i < slk s -> pair_right o N A B (sE s) (nc + i) (sval s i) (sres s i).
Proof. intros H. destruct (C52_every_history s H) as (_ & _ & _ & HE & _ & _ & _ & HL). split; assumption. Qed.

(** The candidates: the same, and the residual is orthogonal to the basis (that
    is what a Ritz pair is), the vector to the constraints and to what is locked. *)
Theorem C52_candidates s : reached o N A B nc s -> forall j, j < sn s ->
  let X := mul o (sn s) (sV s) (sX s) in
  pair_right o N A B X j (sth s j)
    (norm2 o N (resid o (mul o (sn s) (sW s) (sX s)) (mul o (sn s) (sBV s) (sX s)) (sth s) j)) /\
  ritz_pairs o N (sn s) A B (sV s) X (sth s) j /\
  (forall i, i < nc + slk s -> form o N (sE s) B X i j = k0 o).
Proof. intros H j Hj. exact (good_candidate o L N A B nc s j (C52_every_history s H) Hj). Qed.

(** One step changes neither the constraints nor what is locked. *)
Lemma step_locked s s' : step o N A B nc s s' ->
  slk s <= slk s' /\ (forall r j, j < nc + slk s -> sE s' r j = sE s r j) /\
  (forall i, i < slk s -> sval s' i = sval s i /\ sres s' i = sres s i).
Proof.
  intros H. destruct H as [LK f t s bs D s' HL Hf E|LK f t s bs D s' HL Hf E|LK t s s' HL E
    |LK f t ch s ipB np X ip perm hperm s' HL Hf Hr Hs Hp Ht E|LK f t ch s ipB np X ip m ok perm hperm s' HL Hf Hr Hs _ E].
  1,2: unfold grow in E; cbv zeta in E;
    match goal with X : bind ?c _ = Some _ |- _ => destruct c as [[[V2 BV2] b2]|]; [|discriminate] end;
    cbn [bind] in E;
    match type of E with context [solve_H_RR ?a ?b ?c ?d ?e ?g] => destruct (solve_H_RR a b c d e g) as [p|]; [|discriminate] end;
    cbn [bind] in E; injection E as <-; cbn [slk sE sval sres]; repeat split; auto.
  - unfold reproject in E. cbv zeta in E.
    match type of E with context [solve_H_RR ?a ?b ?c ?d ?e ?g] => destruct (solve_H_RR a b c d e g) as [p|]; [|discriminate] end.
    cbn [bind] in E. injection E as <-. cbn [slk sE sval sres]. repeat split; auto.
  - unfold restart_soft in E. cbv zeta in E.
    destruct (restart_RR _ _ _ _ _ _ _ _ _ _ _ _ _ _) as [[[H2 w] X2]|] in E; [|discriminate].
    cbn [bind] in E. injection E as <-. cbn [slk sE sval sres]. repeat split; auto.
  - unfold restart_lock in E. cbv zeta in E.
    destruct (restart_RR _ _ _ _ _ _ _ _ _ _ _ _ _ _) as [[[H2 w] X2]|] in E; [|discriminate].
    cbn [bind] in E. injection E as <-. cbn [slk sE sval sres]. split; [lia|]. split.
    + intros r j Hj. replace (nc + slk s <=? j) with false by (symmetry; apply Nat.leb_gt; exact Hj). reflexivity.
    + intros i Hi. replace (slk s <=? i) with false by (symmetry; apply Nat.leb_gt; exact Hi). split; reflexivity.
Qed.
Theorem C52_locked_forever s s' : steps o N A B nc s s' ->
  slk s <= slk s' /\ (forall r j, j < nc + slk s -> sE s' r j = sE s r j) /\
  (forall i, i < slk s -> sval s' i = sval s i /\ sres s' i = sres s i).
Proof.
  intros H. induction H as [s|s s' s'' Hs IH Hst]; [repeat split; auto|].
  destruct IH as (I1 & I2 & I3). destruct (step_locked _ _ Hst) as (J1 & J2 & J3).
  split; [lia|]. split.
  - intros r j Hj. rewrite J2 by lia. apply I2. exact Hj.
  - intros i Hi. destruct (I3 i Hi) as [P Q]. destruct (J3 i ltac:(lia)) as [P' Q']. split; congruence.
Qed.

(** What is returned without locking is measured: the norm is that of the vector and
    value returned, whatever they are. *)
Theorem C52_returned_norms s : reached o N A B nc s ->
  let '(X, w, res) := returned o N s in
  forall j, j < sn s -> form o N X B X j j = k1 o /\ res j = residual2 o N A B X j (w j).
Proof.
  intros H. cbn [returned]. intros j Hj. destruct (C52_every_history s H) as (HW & HBV & HV & _).
  split; [rewrite (HV j j Hj Hj); unfold one; rewrite Nat.eqb_refl; reflexivity|].
  unfold norm2, residual2, resid. apply sum_ext. intros r Hr. cbv zeta. rewrite (HW r j Hr Hj), (HBV r j Hr Hj). reflexivity.
Qed.

(** And after the last restart, when all have converged and the shift is the same,
    the values are those of the vectors in front of them. *)
Theorem C52_returned_pairs s LK vorth t ipB np X ip perm hperm s' : reached o N A B nc s ->
  kernels_right o LK -> vec_right o vorth -> retains vorth s ipB np X ->
  selects (sn s) (ip + np) ip np ipB perm -> permutes (ip + np) hperm -> together ip np (ip + np) hperm ->
  restart_soft o LK t false s X ip np perm hperm = Some s' ->
  let '(Y, w, res) := returned o N (finish_soft hperm s') in
  forall j, j < ip + np -> kept ip np (hperm j) ->
    pair_right o N A B Y j (w j) (res j) /\
    w j = sth s (perm (hperm j)) /\
    (forall r, Y r j = mul o (sn s) (sV s) (sX s) r (perm (hperm j))) /\
    forall i, i < ip + np -> form o N Y B Y i j = one o i j.
Proof.
  intros H HL Hv Hr Hs Hp Ht E. cbn [returned finish_soft sV sW sBV sth sn]. intros j Hj Hk.
  assert (Hg := C52_every_history s H). destruct Hr as (sk & sm & pv & li & cn & Er).
  destruct (retained_good o L vorth N A B nc s sk sm pv ipB li cn np X _ ip perm Hv Hg Hs Er) as [G1 G2].
  unfold restart_soft in E.
  destruct (restart_RR o LK t true false (sn s) (ip + np) np ip (sH s) (cols X perm) (fun j => sth s (perm j)) hperm None)
    as [[[H2 w] X2]|] eqn:Es; [|discriminate].
  cbn [bind] in E. injection E as <-. cbn [sn sV sW sBV sH sX sth slk sE sval sres].
  destruct (restart_common o L LK N A B nc t false s X (ip + np) ip np ipB perm hperm H2 w X2 HA HB HL Hg G1 G2 Hs Hp Ht Es)
    as (_ & _ & F3 & _ & _ & _ & F7).
  assert (Ew := F7 eq_refl j Hj Hk).
  destruct Hs as (S1 & S2 & S3 & S4 & S5). destruct Hp as [Hp1 Hp2].
  assert (Hpj : hperm j < ip + np) by (apply Hp1; exact Hj).
  assert (Hb := S5 _ Hpj Hk).
  assert (Ec : forall M : mx, forall r, mul o (sn s) M (cols X perm) r (hperm j) = mul o (sn s) M (sX s) r (perm (hperm j))).
  { intros M r. unfold mul, cols. apply sum_ext. intros l Hl. rewrite G2 by exact Hb. reflexivity. }
  destruct (good_candidate o L N A B nc s (perm (hperm j)) Hg ltac:(lia)) as (P & _ & _).
  split; [|split; [exact Ew|split]].
  - rewrite Ew.
    replace (norm2 o N _) with (norm2 o N (resid o (mul o (sn s) (sW s) (sX s)) (mul o (sn s) (sBV s) (sX s)) (sth s) (perm (hperm j)))).
    + apply (pair_right_ext o N A B (mul o (sn s) (sV s) (sX s)) _ (perm (hperm j))); [|exact P].
      intros r _. symmetry. apply Ec.
    + unfold norm2. apply sum_ext. intros r Hr. unfold resid.
      rewrite Ew. change (cols (mul o (sn s) (sW s) (cols X perm)) hperm r j) with (mul o (sn s) (sW s) (cols X perm) r (hperm j)).
      change (cols (mul o (sn s) (sBV s) (cols X perm)) hperm r j) with (mul o (sn s) (sBV s) (cols X perm) r (hperm j)).
      rewrite !Ec. reflexivity.
  - intros r. apply Ec.
  - intros i Hi. 
    rewrite (form_ext o N B _ _ (mul o (sn s) (sV s) (cols X perm)) (mul o (sn s) (sV s) (cols X perm)) i j (hperm i) (hperm j)) by reflexivity.
    unfold orthonormal_in in F3. rewrite F3 by auto. unfold one.
    destruct (Nat.eqb_spec (hperm i) (hperm j)) as [e|ne], (Nat.eqb_spec i j) as [e'|ne']; try reflexivity.
    + exfalso. apply ne', Hp2; auto.
    + subst. contradiction.
Qed.
End Props.
