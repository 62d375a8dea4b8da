(** C16, C17: what main_iter reports and how it keeps to its limits. *)
From Coq Require Import List Arith ZArith Bool Lia.
From Verif Require Import Base RestartModel InnerModel MainModel SpecMain MainProofs.
Import ListNotations.

(** C16.  The call ends with 0 or PRIMME_MAIN_ITER_FAILURE; 0 means that every wanted
    pair converged, or with locking that the space was exhausted; and no more
    pairs than wanted are reported or returned. *)
Theorem C16_success : forall p m b g x h s, 1 <= p_maxBlock p -> b <= p_maxBasis p ->
  steps p (start p m b g x) h s -> pc s = PDone ->
  (ret s = 0%Z \/ ret s = (-3)%Z) /\
  (ret s = 0%Z -> isz s = p_numEvals p \/ (p_locking p = true /\ whole s = true)) /\
  isz s <= p_numEvals p /\ nret s <= p_numEvals p.
Proof.
  intros p m b g x h s H1 Hb H Hd.
  pose proof (inv_steps p _ h s H1 (inv_start p m b g x Hb) H) as I.
  pose proof (i_done p s I Hd) as D. pose proof (i_iszE p s I). pose proof (i_nretE p s I).
  split; [tauto|]. split; [|auto]. intros E. destruct D as [[_ D]|[D _]]; [tauto|congruence].
Qed.

(** With locking a failure means that some wanted pair did not converge ... *)
Theorem C16_failure_partial : forall p m b g x h s, 1 <= p_maxBlock p -> b <= p_maxBasis p ->
  steps p (start p m b g x) h s -> pc s = PDone -> ret s = (-3)%Z -> p_locking p = true ->
  isz s < p_numEvals p.
Proof.
  intros p m b g x h s H1 Hb H Hd E El.
  pose proof (inv_steps p _ h s H1 (inv_start p m b g x Hb) H) as I.
  destruct (i_done p s I Hd) as [[D _]|[_ [D|[D _]]]]; [congruence|auto|congruence].
Qed.

(** The other ground for success: the space was exhausted.  That is concluded only in an
    expansion with an empty block, no reset and no new vector, so that no direction was
    left to try. *)
Lemma whole_guesses : forall p o s, whole (add_guesses p o s) = whole s.
Proof. intros. unfold add_guesses. destruct (0 <? guesses s); reflexivity. Qed.
Lemma whole_after : forall p o s, whole (after p o s) = whole s.
Proof.
  intros. unfold after. destruct (reset s || _)%bool; [reflexivity|].
  destruct (negb (prepared s) && o_reset2 o)%bool; [reflexivity|].
  cbv zeta. set (t := add_guesses _ _ _). transitivity (whole t); [reflexivity|]. unfold t.
  rewrite whole_guesses. reflexivity.
Qed.
Lemma whole_step : forall p o s, whole (step p o s) = true -> whole s = false ->
  pc s = PBasis /\ o_blk o = 0 /\ o_gain o = 0 /\ o_reset o = false /\ reset s = false /\
  bsz s < p_maxBasis p.
Proof.
  intros p o s H W. unfold step in H. destruct (pc s) eqn:E.
  - destruct (under p s); cbn in H; congruence.
  - destruct ((nc s <? p_numEvals p) && under p s && negb (whole s))%bool; cbn in H; congruence.
  - destruct ((bsz s <? p_maxBasis p) && under p s)%bool eqn:EB; [|cbn in H; congruence].
    apply andb_true_iff in EB. destruct EB as [EB _]. apply Nat.ltb_lt in EB.
    unfold expand in H. destruct (break_now _ _ _); [cbn in H; congruence|].
    destruct (o_gain o =? 0) eqn:EG.
    + apply Nat.eqb_eq in EG.
      match type of H with context [if ?c then _ else _] => destruct c eqn:EC end; cbn in H, EC; [|congruence].
      apply andb_true_iff in EC. destruct EC as [E1 E2]. apply Nat.eqb_eq in E1.
      apply negb_true_iff, orb_false_iff in E2. tauto.
    + match type of H with context [if ?c then _ else _] => destruct c end; [cbn in H; congruence|].
      match type of H with context [if ?c then _ else _] => destruct c end; [cbn in H; congruence|].
      match type of H with context [if ?c then _ else _] => destruct c end; cbn in H; congruence.
  - rewrite whole_after in H. congruence.
  - unfold finish in H. destruct (p_locking p).
    + destruct ((p_numEvals p <=? nc s) || (bsz s =? 0))%bool; cbn in H; congruence.
    + match type of H with context [if ?c then _ else _] => destruct c end; cbn in H; congruence.
  - congruence.
Qed.

Theorem C16_exhausted : forall p m b g x h s,
  steps p (start p m b g x) h s -> whole s = true ->
  exists h1 o h2 s1, h = h1 ++ o :: h2 /\ steps p (start p m b g x) h1 s1 /\ legal p s1 o /\
    pc s1 = PBasis /\ o_blk o = 0 /\ o_gain o = 0 /\ o_reset o = false /\ reset s1 = false /\
    bsz s1 < p_maxBasis p.
Proof.
  intros p m b g x h s H W.
  assert (G : forall s0, whole s0 = false -> steps p s0 h s ->
    exists h1 o h2 s1, h = h1 ++ o :: h2 /\ steps p s0 h1 s1 /\ legal p s1 o /\
      pc s1 = PBasis /\ o_blk o = 0 /\ o_gain o = 0 /\ o_reset o = false /\ reset s1 = false /\
      bsz s1 < p_maxBasis p).
  { clear H. intros s0 W0 H. revert W0. induction H as [s0|s0 o h s Hd L H IH]; intros W0; [congruence|].
    destruct (whole (step p o s0)) eqn:E.
    - exists [], o, h, s0. pose proof (whole_step p o s0 E W0). split; [auto|]. split; [constructor|]. tauto.
    - destruct (IH W eq_refl) as (h1 & o1 & h2 & s1 & -> & S1 & R).
      exists (o :: h1), o1, h2, s1. split; auto. split; [constructor; auto|auto]. }
  apply G; auto. unfold start. destruct (p_numEvals p =? 0); reflexivity.
Qed.

(** The default choice of the examples: nothing happens. *)
Definition quiet : choice :=
  {| o_blk := 0; o_rc := 0; o_reset := false; o_shift := false; o_inner := 0; o_gain := 0;
     o_bmv := 0; o_pract := 0; o_qrdef := false; o_qrerr := false; o_tol := false;
     o_reset2 := false; o_nc := 0; o_nl := 0; o_bsz := 0; o_blk2 := 0; o_failed := 0;
     o_gain2 := 0; o_bmv2 := 0; o_copied := 0; o_ver := 0; o_bsz3 := 0; o_bmv3 := 0 |}.

(** ... but without locking a failure may come with all wanted pairs reported as
    converged (initSize) and nothing returned: the test before returning fails, and
    recomputing the products uses up the limit. *)
Definition ex_soft : params :=
  {| p_locking := false; p_maxMatvecs := 2; p_maxOuter := 0; p_numEvals := 1; p_maxBasis := 3;
     p_maxBlock := 1; p_minRestart := 1; p_n := 100; p_noc := 0; p_qr := false; p_nshifts := 0;
     p_late := false; p_lockNow := false; p_inner := false; p_B := false; p_ortho := 0 |}.

Definition converged1 : choice :=
  {| o_blk := 0; o_rc := 1; o_reset := false; o_shift := false; o_inner := 0; o_gain := 0;
     o_bmv := 0; o_pract := 0; o_qrdef := false; o_qrerr := false; o_tol := false;
     o_reset2 := false; o_nc := 0; o_nl := 0; o_bsz := 0; o_blk2 := 0; o_failed := 0;
     o_gain2 := 0; o_bmv2 := 0; o_copied := 0; o_ver := 0; o_bsz3 := 0; o_bmv3 := 0 |}.
Definition restarted1 : choice :=
  {| o_blk := 0; o_rc := 0; o_reset := false; o_shift := false; o_inner := 0; o_gain := 0;
     o_bmv := 0; o_pract := 0; o_qrdef := false; o_qrerr := false; o_tol := false;
     o_reset2 := false; o_nc := 1; o_nl := 0; o_bsz := 1; o_blk2 := 0; o_failed := 0;
     o_gain2 := 0; o_bmv2 := 0; o_copied := 1; o_ver := 0; o_bsz3 := 0; o_bmv3 := 0 |}.
Definition unverified : choice :=
  {| o_blk := 0; o_rc := 0; o_reset := false; o_shift := false; o_inner := 0; o_gain := 0;
     o_bmv := 0; o_pract := 0; o_qrdef := false; o_qrerr := false; o_tol := false;
     o_reset2 := false; o_nc := 1; o_nl := 0; o_bsz := 1; o_blk2 := 0; o_failed := 0;
     o_gain2 := 0; o_bmv2 := 0; o_copied := 1; o_ver := 0; o_bsz3 := 1; o_bmv3 := 0 |}.

Theorem C16_failure_refuted : exists p m b g x h s,
  1 <= p_maxBlock p /\ b <= p_maxBasis p /\ steps p (start p m b g x) h s /\ pc s = PDone /\
  ret s = (-3)%Z /\ isz s = p_numEvals p /\ nret s = 0.
Proof.
  exists ex_soft, 1, 1, 0, 0,
    [quiet; quiet; converged1; restarted1; restarted1; unverified; restarted1].
  destruct (runb ex_soft (start ex_soft 1 1 0 0)
    [quiet; quiet; converged1; restarted1; restarted1; unverified; restarted1]) as [s|] eqn:E.
  - exists s. split; [cbn; lia|]. split; [cbn; lia|]. split; [apply runb_steps; exact E|].
    vm_compute in E. inversion E; subst s. repeat split.
  - vm_compute in E. discriminate.
Qed.

(** With locking nothing is counted as returned when everything converged: the
    count is set only if some wanted pair is missing. *)
Theorem C26_locking_refuted : forall p m b g x h s, 1 <= p_maxBlock p -> b <= p_maxBasis p ->
  p_locking p = true ->
  steps p (start p m b g x) h s -> pc s = PDone -> isz s = p_numEvals p -> nret s = 0.
Proof.
  intros p m b g x h s H1 Hb El H. apply (locking_nret p (start p m b g x) h); auto.
  - apply inv_start. auto.
  - unfold start. destruct (p_numEvals p =? 0); cbn; auto.
Qed.

Definition ex_lock : params :=
  {| p_locking := true; p_maxMatvecs := 50; p_maxOuter := 0; p_numEvals := 1; p_maxBasis := 3;
     p_maxBlock := 1; p_minRestart := 1; p_n := 100; p_noc := 0; p_qr := false; p_nshifts := 0;
     p_late := false; p_lockNow := false; p_inner := false; p_B := false; p_ortho := 0 |}.
Definition locked1 : choice :=
  {| o_blk := 0; o_rc := 0; o_reset := false; o_shift := false; o_inner := 0; o_gain := 0;
     o_bmv := 0; o_pract := 0; o_qrdef := false; o_qrerr := false; o_tol := false;
     o_reset2 := false; o_nc := 1; o_nl := 1; o_bsz := 0; o_blk2 := 0; o_failed := 0;
     o_gain2 := 0; o_bmv2 := 0; o_copied := 1; o_ver := 0; o_bsz3 := 0; o_bmv3 := 0 |}.
Definition expand1 : choice :=
  {| o_blk := 1; o_rc := 0; o_reset := false; o_shift := false; o_inner := 0; o_gain := 1;
     o_bmv := 0; o_pract := 0; o_qrdef := false; o_qrerr := false; o_tol := false;
     o_reset2 := false; o_nc := 0; o_nl := 0; o_bsz := 1; o_blk2 := 0; o_failed := 0;
     o_gain2 := 0; o_bmv2 := 0; o_copied := 1; o_ver := 0; o_bsz3 := 0; o_bmv3 := 0 |}.
(** A whole run: expand, converge, lock, return. *)
Example C16_run : exists s,
  steps ex_lock (start ex_lock 1 1 0 0) [quiet; quiet; expand1; converged1; locked1; locked1; locked1] s /\
  pc s = PDone /\ ret s = 0%Z /\ isz s = 1 /\ mv s = 2 /\ outer s = 2 /\ nret s = 0.
Proof.
  destruct (runb ex_lock (start ex_lock 1 1 0 0)
    [quiet; quiet; expand1; converged1; locked1; locked1; locked1]) as [s|] eqn:E.
  - exists s. split; [apply runb_steps; exact E|]. vm_compute in E. inversion E; subst s.
    repeat split.
  - vm_compute in E. discriminate.
Qed.

(** C17.  The inner solver applies the operator to at most the systems of the block in
    each of at most as many iterations as there are products left. *)
Theorem C17_inner : forall mass adaptive intmax maxMatvecs numMatvecs maxInner block drop,
  0 < maxMatvecs ->
  let per := per_iteration mass adaptive in
  inner_cost mass adaptive (max_iterations intmax maxMatvecs numMatvecs maxInner) block drop
    <= block * (per * (maxMatvecs - numMatvecs)) /\
  (0 < maxInner ->
   inner_cost mass adaptive (max_iterations intmax maxMatvecs numMatvecs maxInner) block drop
     <= block * (per * maxInner)) /\
  per = (if mass then if adaptive then 3 else 2 else 1).
Proof.
  intros mass adaptive intmax M k maxInner block drop HM per.
  assert (L : forall q f i b d, inner_matvecs q f i b d <= b * (q * f)).
  { clear. intros q. induction f as [|f IH]; intros i b d; cbn [inner_matvecs]; [lia|].
    destruct (b =? 0); [lia|].
    pose proof (IH (S i) (b - fst (d i) - snd (d i)) d) as H.
    assert ((b - fst (d i) - snd (d i)) * (q * f) <= b * (q * f)) by (apply Nat.mul_le_mono_r; lia).
    lia. }
  unfold inner_cost, max_iterations. fold per.
  replace (M =? 0) with false by (symmetry; apply Nat.eqb_neq; lia).
  split; [|split].
  - eapply Nat.le_trans; [apply L|]. apply Nat.mul_le_mono_l, Nat.mul_le_mono_l. destruct (maxInner =? 0); lia.
  - intros Hm. eapply Nat.le_trans; [apply L|]. apply Nat.mul_le_mono_l, Nat.mul_le_mono_l.
    destruct (Nat.eqb_spec maxInner 0); lia.
  - subst per. destruct mass, adaptive; reflexivity.
Qed.

(** The outer iterations never exceed their limit. *)
Theorem C17_outer : forall p m b g x h s, 1 <= p_maxBlock p -> b <= p_maxBasis p ->
  0 < p_maxOuter p -> steps p (start p m b g x) h s -> outer s <= p_maxOuter p.
Proof.
  intros p m b g x h s H1 Hb Ho H.
  assert (J : forall s0 h0 s1, inv p s0 -> outer s0 <= p_maxOuter p -> steps p s0 h0 s1 ->
              outer s1 <= p_maxOuter p).
  { clear H h s. intros s0 h0 s1 I J H. induction H; auto.
    apply IHsteps; [apply inv_step; auto|]. clear IHsteps H2.
    unfold step. destruct (pc s) eqn:Epc; auto.
    - destruct (under p s); fields; auto.
    - destruct (_ && _); fields; auto.
    - destruct ((bsz s <? p_maxBasis p) && under p s) eqn:Ec; fields; auto.
      apply andb_true_iff in Ec. destruct Ec as [Ec Eu]. apply Nat.ltb_lt in Ec.
      destruct (expand_spec p o s I H0 Epc Ec H1) as (-> & _).
      unfold under in Eu. apply andb_true_iff in Eu. destruct Eu as [_ Eu].
      apply orb_true_iff in Eu. destruct Eu as [Eu|Eu]; bools; lia.
    - pose proof (after_spec p o s (i_bsz p s I) (l_bsz p s o H0)) as X. cbn zeta in X.
      destruct X as [[X _]|(_ & g' & k & _ & _ & _ & _ & _ & _ & _ & X & _)];
        rewrite X; fields; auto.
    - unfold finish. destruct (p_locking p).
      + destruct (_ || (bsz s =? 0)); fields; auto.
      + cbn zeta. fields. destruct (_ || whole s); fields; auto. }
  apply (J (start p m b g x) h s); auto.
  - apply inv_start; auto.
  - unfold start. destruct (p_numEvals p =? 0); cbn; lia.
Qed.

(** Once a limit is reached no expansion step is done any more; the only products
    still computed are those of initial guesses not yet used: with A, and with B for
    their orthogonalisation. *)
Theorem C17_stop : forall p m b g x h1 s1 h2 s2, 1 <= p_maxBlock p -> b <= p_maxBasis p ->
  steps p (start p m b g x) h1 s1 -> under p s1 = false -> steps p s1 h2 s2 ->
  let c := 1 + per_vector p in
  outer s2 = outer s1 /\ mv s2 + c * guesses s2 <= mv s1 + c * guesses s1 /\ guesses s2 <= guesses s1.
Proof.
  intros p m b g x h1 s1 h2 s2 H1 Hb Ha Hu H c.
  pose proof (inv_steps p _ h1 s1 H1 (inv_start p m b g x Hb) Ha) as I. clear Ha.
  revert I Hu. induction H; intros I Hu; [lia|].
  pose proof (step_mono p o s H1 I H0 H) as (M1 & M2 & M3).
  pose proof (step_cost p o s H1 I H0 H) as C. cbn zeta in C. fold c in C.
  destruct C as [[C1 C2]|[C _]]; [|congruence]. specialize (C2 Hu).
  destruct (IHsteps (inv_step p o s H1 I H0 H) (under_mono p s _ M1 M2 Hu)) as (D1 & D2 & D3).
  lia.
Qed.

(** The number of products.  Without an inner solver it exceeds the limit by
    less than one block, plus the initial guesses that were given and, without
    locking, plus one basis: the recomputation of the products before returning.
    With a mass matrix a vector costs, besides the product with A, the products with B
    of its orthogonalisation. *)
Theorem C17_overshoot : forall p m b g x h s, 1 <= p_maxBlock p -> b <= p_maxBasis p ->
  p_inner p = false ->
  steps p (start p m b g x) h s ->
  let c := 1 + per_vector p in
  mv s + c * guesses s <=
    Nat.max m (p_maxMatvecs p - 1 +
      c * (if p_locking p then p_maxBlock p else Nat.max (p_maxBlock p) (p_maxBasis p))) + c * g.
Proof.
  intros p m b g x h s H1 Hb Hi H c.
  remember (c * if p_locking p then p_maxBlock p else Nat.max (p_maxBlock p) (p_maxBasis p)) as X eqn:EX.
  assert (EX1 : c * p_maxBlock p <= X) by (subst X; apply Nat.mul_le_mono_l; destruct (p_locking p); lia).
  assert (EX2 : p_locking p = false -> c * p_maxBasis p <= X) by (intros E; subst X; rewrite E; apply Nat.mul_le_mono_l; lia).
  clear EX.
  assert (J : forall B s0 h0 s1, inv p s0 -> p_maxMatvecs p - 1 + X <= B ->
     guesses s0 <= g -> mv s0 + c * guesses s0 <= B + c * g -> steps p s0 h0 s1 -> mv s1 + c * guesses s1 <= B + c * g).
  { clear H h s. intros B s0 h0 s1 I HX Hg Hc H. induction H; auto.
    pose proof (step_mono p o s H1 I H0 H) as (M1 & M2 & M3).
    pose proof (step_cost p o s H1 I H0 H) as C. cbn zeta in C. fold c in C.
    pose proof (l_noinner p s o H0 Hi) as Hno.
    assert (c * guesses s <= c * g) by (apply Nat.mul_le_mono_l; lia).
    apply IHsteps; [apply inv_step; auto|lia|].
    destruct C as [[C _]|[Cu C]]; [lia|].
    unfold under in Cu. apply andb_true_iff in Cu. destruct Cu as [Cu _]. apply Nat.ltb_lt in Cu.
    destruct C as [[C _]|[Cl C]].
    - rewrite Hno in C. lia.
    - specialize (EX2 Cl). lia. }
  apply (J (Nat.max m (p_maxMatvecs p - 1 + X)) (start p m b g x) h s); auto.
  - apply inv_start; auto.
  - lia.
  - unfold start. destruct (p_numEvals p =? 0); cbn; lia.
  - unfold start. destruct (p_numEvals p =? 0); cbn [guesses mv]; lia.
Qed.

(** With the inner solver the limit may be exceeded by a factor of the block size (three
    times that with a mass matrix); with a block of one and no mass matrix by two products. *)
Theorem C17_overshoot_inner : forall p m b g x h s, 1 <= p_maxBlock p -> b <= p_maxBasis p ->
  steps p (start p m b g x) h s ->
  let c := 1 + per_vector p in
  mv s + c * guesses s <=
    Nat.max m (Nat.max (p_maxBlock p * ((if p_B p then 3 else 1) * p_maxMatvecs p + c))
      (if p_locking p then 0 else p_maxMatvecs p - 1 + c * p_maxBasis p)) + c * g.
Proof.
  intros p m b g x h s H1 Hb H c. fold (per_inner p).
  remember (Nat.max (p_maxBlock p * (per_inner p * p_maxMatvecs p + c))
      (if p_locking p then 0 else p_maxMatvecs p - 1 + c * p_maxBasis p)) as X eqn:EX.
  assert (J : forall B s0 h0 s1, inv p s0 -> guesses s0 <= g -> X <= B ->
     mv s0 + c * guesses s0 <= B + c * g -> steps p s0 h0 s1 -> mv s1 + c * guesses s1 <= B + c * g).
  { clear H h s. intros B s0 h0 s1 I Hg HX Hc H. induction H; auto.
    pose proof (step_mono p o s H1 I H0 H) as (M1 & M2 & M3).
    pose proof (step_cost p o s H1 I H0 H) as C. cbn zeta in C. fold c in C.
    assert (c * guesses s <= c * g) by (apply Nat.mul_le_mono_l; lia).
    apply IHsteps; [apply inv_step; auto|lia|].
    destruct C as [[C _]|[Cu C]]; [lia|].
    unfold under in Cu. apply andb_true_iff in Cu. destruct Cu as [Cu _]. apply Nat.ltb_lt in Cu.
    destruct C as [[C C2]|[Cl C]].
    - assert (mv s + p_maxBlock p * (per_inner p * (p_maxMatvecs p - mv s)) + c * p_maxBlock p <= X).
      { subst X. etransitivity; [|apply Nat.le_max_l].
        assert (K : 1 <= per_inner p) by (unfold per_inner; destruct (p_B p); lia).
        replace (p_maxMatvecs p) with (mv s + (p_maxMatvecs p - mv s)) at 2 by lia.
        generalize (p_maxMatvecs p - mv s) as y. revert K. generalize (per_inner p) as k. generalize c as d. intros d k K y. clear - H1 K.
        rewrite !Nat.mul_add_distr_l, (Nat.mul_comm d).
        assert (mv s <= p_maxBlock p * (k * mv s)).
        { rewrite Nat.mul_assoc. rewrite <- (Nat.mul_1_l (mv s)) at 1. apply Nat.mul_le_mono_r. nia. }
        lia. }
      lia.
    - rewrite Cl in EX. lia. }
  apply (J (Nat.max m X) (start p m b g x) h s); auto.
  - apply inv_start; auto.
  - unfold start. destruct (p_numEvals p =? 0); cbn; lia.
  - lia.
  - unfold start. destruct (p_numEvals p =? 0); cbn [guesses mv]; lia.
Qed.

(** Such an excess happens: two systems, ten products allowed, eighteen done. *)
Definition ex_inner : params :=
  {| p_locking := true; p_maxMatvecs := 10; p_maxOuter := 0; p_numEvals := 3; p_maxBasis := 6;
     p_maxBlock := 2; p_minRestart := 3; p_n := 100; p_noc := 0; p_qr := false; p_nshifts := 0;
     p_late := false; p_lockNow := false; p_inner := true; p_B := false; p_ortho := 0 |}.
Definition inner2 : choice :=
  {| o_blk := 2; o_rc := 0; o_reset := false; o_shift := false; o_inner := 14; o_gain := 2;
     o_bmv := 0; o_pract := 0; o_qrdef := false; o_qrerr := false; o_tol := false;
     o_reset2 := false; o_nc := 0; o_nl := 0; o_bsz := 1; o_blk2 := 0; o_failed := 0;
     o_gain2 := 0; o_bmv2 := 0; o_copied := 1; o_ver := 0; o_bsz3 := 0; o_bmv3 := 0 |}.
Theorem C17_overshoot_refuted : exists p m b g x h s,
  1 <= p_maxBlock p /\ b <= p_maxBasis p /\ m <= p_maxMatvecs p /\ g = 0 /\
  p_B p = false /\ p_locking p = true /\
  steps p (start p m b g x) h s /\ p_maxMatvecs p + p_maxBlock p < mv s.
Proof.
  exists ex_inner, 3, 3, 0, 0, [quiet; quiet; inner2].
  destruct (runb ex_inner (start ex_inner 3 3 0 0) [quiet; quiet; inner2]) as [s|] eqn:E.
  - exists s. repeat (split; [cbn; solve [auto|lia]|]).
    split; [apply runb_steps; exact E|].
    vm_compute in E. inversion E; subst s. cbn. lia.
  - vm_compute in E. discriminate.
Qed.

(** The initial basis is built without looking at the limit: [m] is not bounded by
    it, as here. *)
Example C17_start : mv (start ex_inner 20 6 0 0) = 20 /\ p_maxMatvecs ex_inner = 10.
Proof. split; reflexivity. Qed.

Print Assumptions C16_success.
Print Assumptions C16_failure_partial.
Print Assumptions C16_failure_refuted.
Print Assumptions C26_locking_refuted.
Print Assumptions C17_inner.
Print Assumptions C17_outer.
Print Assumptions C17_stop.
Print Assumptions C17_overshoot.
Print Assumptions C17_overshoot_inner.
Print Assumptions C17_overshoot_refuted.
Print Assumptions C16_exhausted.

(** A case with a mass matrix: one vector, five products with B in its orthogonalisation;
    the limit of three products is exceeded by as much as the theorem allows. *)
Definition ex_mass : params :=
  {| p_locking := true; p_maxMatvecs := 3; p_maxOuter := 0; p_numEvals := 3; p_maxBasis := 6;
     p_maxBlock := 1; p_minRestart := 3; p_n := 100; p_noc := 0; p_qr := false; p_nshifts := 0;
     p_late := false; p_lockNow := false; p_inner := false; p_B := true; p_ortho := 5 |}.
Definition mass1 : choice :=
  {| o_blk := 1; o_rc := 0; o_reset := false; o_shift := false; o_inner := 0; o_gain := 1;
     o_bmv := 5; o_pract := 0; o_qrdef := false; o_qrerr := false; o_tol := false;
     o_reset2 := false; o_nc := 0; o_nl := 0; o_bsz := 1; o_blk2 := 0; o_failed := 0;
     o_gain2 := 0; o_bmv2 := 0; o_copied := 1; o_ver := 0; o_bsz3 := 0; o_bmv3 := 0 |}.
Example C17_mass_case : exists s,
  steps ex_mass (start ex_mass 2 2 0 0) [quiet; quiet; mass1] s /\
  mv s = p_maxMatvecs ex_mass - 1 + (1 + per_vector ex_mass) * p_maxBlock ex_mass.
Proof.
  destruct (runb ex_mass (start ex_mass 2 2 0 0) [quiet; quiet; mass1]) as [s|] eqn:E.
  - exists s. split; [apply runb_steps; exact E|]. vm_compute in E. inversion E; subst s. reflexivity.
  - vm_compute in E. discriminate.
Qed.
