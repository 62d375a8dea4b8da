(** C36: whether main_iter ends. *)
From Coq Require Import List Arith ZArith Bool Lia.
From Verif Require Import Base RestartModel MainModel SpecMain MainProofs MainProofs2 PropsMain.
Import ListNotations.

(** The call goes on until it is done: in every reachable state the called routines
    have an answer within their contracts. *)
Theorem C36_progress : forall p m b g x h s, 1 <= p_maxBlock p -> b <= p_maxBasis p ->
  1 <= p_maxBasis p ->
  steps p (start p m b g x) h s -> pc s <> PDone -> exists o, legal p s o.
Proof.
  intros p m b g x h s H1 Hb HB H Hd.
  pose proof (inv_steps p _ h s H1 (inv_start p m b g x Hb) H) as I.
  pose proof (i_nlE p s I).
  exists {| o_blk := 0; o_rc := 0; o_reset := false; o_shift := false; o_inner := 0; o_gain := 0;
     o_bmv := 0; o_pract := 0; o_qrdef := false; o_qrerr := false; o_tol := false;
     o_reset2 := false; o_nc := nl s; o_nl := nl s; o_bsz := 0; o_blk2 := 0; o_failed := 0;
     o_gain2 := 0; o_bmv2 := 0; o_copied := nc s; o_ver := 0; o_bsz3 := 0; o_bmv3 := 0 |}.
  split; cbn; intros; auto; try lia; destruct (under p s); lia.
Qed.

(** With a limit on the outer iterations the call ends, within a number of turns of
    the loops that depends on that limit and on the number of initial guesses only,
    provided every restart leaves room for a new vector. *)
Theorem C36_bounded : forall p m b g x h s, 1 <= p_maxBlock p -> b <= p_maxBasis p ->
  0 < p_maxOuter p ->
  steps p (start p m b g x) h s -> Forall (fun o => o_bsz o < p_maxBasis p) h ->
  length h <= (p_maxOuter p * (g + 1) + g) * 32 + 31.
Proof.
  intros p m b g x h s H1 Hb Ho H F.
  destruct (p_numEvals p =? 0) eqn:E.
  - unfold start in H. rewrite E in H. inversion H; subst; cbn in *; [lia|congruence].
  - pose proof (phase_lt p (start p m b g x)) as P.
    assert (rank p g (start p m b g x) = p_maxOuter p * (g + 1) + g) as R.
    { unfold rank, start. rewrite E. cbn. rewrite Nat.sub_0_r. reflexivity. }
    apply Nat.eqb_neq in E.
    pose proof (bounded p g (start p m b g x) h s H1 Ho ltac:(lia) (inv_start p m b g x Hb)) as B.
    rewrite R in B. specialize (B ltac:(unfold start; destruct (_ =? 0); cbn; lia) F H). lia.
Qed.

(** Restarts leave room if every pair to be locked passes its test and the basis
    never spans the whole space. *)
Theorem C36_terminates_partial : forall p m b g x h s, 1 <= p_maxBlock p -> b <= p_maxBasis p ->
  0 < p_maxOuter p ->
  (p_locking p = true /\ p_maxBasis p < p_n p) \/
  (p_locking p = false /\ p_maxBasis p + p_noc p < p_n p) ->
  steps p (start p m b g x) h s -> Forall (fun o => o_failed o = 0) h ->
  length h <= (p_maxOuter p * (g + 1) + g) * 32 + 31.
Proof.
  intros p m b g x h s H1 Hb Ho Hn H F. apply (C36_bounded p m b g x h s); auto.
  pose proof (inv_start p m b g x Hb) as I. revert I F.
  induction H as [|s o h s' Hd L H IH]; intros I F; constructor.
  - inversion F; subst. apply (l_room p s o L); auto. destruct Hn as [Hn|[El Hn]]; [auto|right].
    pose proof (i_bsz p s I). rewrite (i_soft p s I El). lia.
  - inversion F; subst. apply IH; auto. apply inv_step; auto.
Qed.

(** The hypotheses are met by the whole run of [C16_run], with a limit added. *)
Definition ex_lock_limit : params :=
  {| p_locking := true; p_maxMatvecs := 50; p_maxOuter := 7; p_numEvals := 1; p_maxBasis := 3;
     p_maxBlock := 1; p_minRestart := 1; p_n := 100; p_noc := 0; p_qr := false; p_nshifts := 0;
     p_late := false; p_lockNow := false; p_inner := false; p_B := false; p_ortho := 0 |}.
Example C36_example : exists s,
  steps ex_lock_limit (start ex_lock_limit 1 1 0 0)
    [quiet; quiet; expand1; converged1; locked1; locked1; locked1] s /\ pc s = PDone /\
  Forall (fun o => o_failed o = 0) [quiet; quiet; expand1; converged1; locked1; locked1; locked1] /\
  p_maxBasis ex_lock_limit < p_n ex_lock_limit.
Proof.
  destruct (runb ex_lock_limit (start ex_lock_limit 1 1 0 0)
    [quiet; quiet; expand1; converged1; locked1; locked1; locked1]) as [s|] eqn:E.
  - exists s. split; [apply runb_steps; exact E|]. vm_compute in E. inversion E; subst s.
    split; [reflexivity|]. split; [repeat constructor|cbn; lia].
  - vm_compute in E. discriminate.
Qed.

(** A turn of the restarting loop that changes nothing. *)
Lemma runb_app : forall p h1 h2 s s1, runb p s h1 = Some s1 -> runb p s (h1 ++ h2) = runb p s1 h2.
Proof.
  intros p. induction h1 as [|o h1 IH]; intros h2 s s1 H; cbn [runb app] in *.
  - inversion H; subst. reflexivity.
  - destruct (pc s); try discriminate; destruct (legal_b p s o); try discriminate; auto.
Qed.
Fixpoint cycles (k : nat) (h : list choice) : list choice :=
  match k with 0 => [] | S k' => h ++ cycles k' h end.
Lemma runb_cycles : forall p h s k, runb p s h = Some s -> runb p s (cycles k h) = Some s.
Proof.
  intros p h s k E. induction k as [|k IH]; [reflexivity|].
  cbn [cycles]. rewrite (runb_app p h _ s s E). exact IH.
Qed.
Lemma length_cycles : forall k h, length (cycles k h) = k * length h.
Proof. induction k; intros; cbn; auto. rewrite app_length, IHk. reflexivity. Qed.

(** Without locking and with maxBasisSize equal to the dimension, once the basis is
    the whole space and the convergence test accepts too few pairs, the call may
    restart for ever: the restart keeps the full basis, no expansion follows, and
    neither the products nor the outer iterations are counted any more. *)
Definition ex_whole : params :=
  {| p_locking := false; p_maxMatvecs := 50; p_maxOuter := 50; p_numEvals := 1; p_maxBasis := 3;
     p_maxBlock := 1; p_minRestart := 1; p_n := 3; p_noc := 0; p_qr := false; p_nshifts := 0;
     p_late := false; p_lockNow := false; p_inner := false; p_B := false; p_ortho := 0 |}.
Definition keep3 : choice :=
  {| o_blk := 0; o_rc := 0; o_reset := false; o_shift := false; o_inner := 0; o_gain := 0;
     o_bmv := 0; o_pract := 0; o_qrdef := false; o_qrerr := false; o_tol := false;
     o_reset2 := false; o_nc := 0; o_nl := 0; o_bsz := 3; o_blk2 := 0; o_failed := 0;
     o_gain2 := 0; o_bmv2 := 0; o_copied := 1; o_ver := 0; o_bsz3 := 0; o_bmv3 := 0 |}.
Theorem C36_wholespace_refuted : exists p m b g x h0 s,
  1 <= p_maxBlock p /\ b <= p_maxBasis p /\ p_maxBasis p = p_n p /\ 0 < p_maxOuter p /\
  under p s = true /\ steps p (start p m b g x) h0 s /\ pc s <> PDone /\
  forall k, exists h, k <= length h /\ Forall (fun o => o_failed o = 0) h /\ steps p s h s.
Proof.
  exists ex_whole, 3, 3, 0, 0, [quiet; keep3; keep3; keep3].
  destruct (runb ex_whole (start ex_whole 3 3 0 0) [quiet; keep3; keep3; keep3]) as [s|] eqn:E;
    [|vm_compute in E; discriminate].
  exists s. split; [cbn; lia|]. split; [cbn; lia|]. split; [reflexivity|]. split; [cbn; lia|].
  assert (E' := E). vm_compute in E'. inversion E' as [E2]. clear E'.
  split; [reflexivity|]. split; [apply runb_steps; rewrite E2; exact E|].
  split; [discriminate|]. rewrite E2.
  intros k. exists (cycles k [keep3; keep3; keep3]). split; [rewrite length_cycles; cbn; lia|].
  split.
  - clear. induction k; cbn [cycles app]; repeat constructor; auto.
  - apply runb_steps. apply runb_cycles. rewrite <- E2. vm_compute. reflexivity.
Qed.

(** With locking, pairs that pass the convergence test but fail it again when they are
    about to be locked return to the basis; if they fill it, the same happens. *)
Definition ex_fail : params :=
  {| p_locking := true; p_maxMatvecs := 50; p_maxOuter := 50; p_numEvals := 3; p_maxBasis := 3;
     p_maxBlock := 1; p_minRestart := 1; p_n := 100; p_noc := 0; p_qr := false; p_nshifts := 0;
     p_late := false; p_lockNow := false; p_inner := false; p_B := false; p_ortho := 0 |}.
Definition fail2 : choice :=
  {| o_blk := 0; o_rc := 0; o_reset := false; o_shift := false; o_inner := 0; o_gain := 0;
     o_bmv := 0; o_pract := 0; o_qrdef := false; o_qrerr := false; o_tol := false;
     o_reset2 := false; o_nc := 0; o_nl := 0; o_bsz := 3; o_blk2 := 0; o_failed := 2;
     o_gain2 := 0; o_bmv2 := 0; o_copied := 1; o_ver := 0; o_bsz3 := 0; o_bmv3 := 0 |}.
Theorem C36_failed_refuted : exists p m b g x h0 s,
  1 <= p_maxBlock p /\ b <= p_maxBasis p /\ p_maxBasis p + p_numEvals p < p_n p /\
  p_locking p = true /\ 0 < p_maxOuter p /\
  under p s = true /\ steps p (start p m b g x) h0 s /\ pc s <> PDone /\
  forall k, exists h, k <= length h /\ steps p s h s.
Proof.
  exists ex_fail, 3, 3, 0, 0, [quiet; fail2; fail2; fail2].
  destruct (runb ex_fail (start ex_fail 3 3 0 0) [quiet; fail2; fail2; fail2]) as [s|] eqn:E;
    [|vm_compute in E; discriminate].
  exists s. split; [cbn; lia|]. split; [cbn; lia|]. split; [cbn; lia|]. split; [reflexivity|].
  split; [cbn; lia|].
  assert (E' := E). vm_compute in E'. inversion E' as [E2]. clear E'.
  split; [reflexivity|]. split; [apply runb_steps; rewrite E2; exact E|].
  split; [discriminate|]. rewrite E2.
  intros k. exists (cycles k [fail2; fail2; fail2]). split; [rewrite length_cycles; cbn; lia|].
  apply runb_steps. apply runb_cycles. rewrite <- E2. vm_compute. reflexivity.
Qed.

Print Assumptions C36_progress.
Print Assumptions C36_bounded.
Print Assumptions C36_terminates_partial.
Print Assumptions C36_wholespace_refuted.
Print Assumptions C36_failed_refuted.
