(** A measure for the loops of main_iter. *)
From Coq Require Import List Arith ZArith Bool Lia.
From Verif Require Import Base RestartModel MainModel SpecMain MainProofs.
Import ListNotations.

Definition full (p : params) (s : st) : bool := p_maxBasis p <=? bsz s.
Definition goes_on (p : params) (s : st) : bool := (nc s <? p_numEvals p) && negb (whole s).

Definition phase (p : params) (s : st) : nat :=
  match pc s with
  | PDone => 0
  | POuter => if negb (under p s) then 1 else if full p s then 19 else 12
  | PFinish => if negb (under p s) || p_locking p || whole s then 1
               else if full p s then 23 else 14
  | PRestart =>
      if negb (under p s) then 2
      else if goes_on p s then
        (if full p s then (if est s then 22 else 18) else 11)
      else if p_locking p || whole s then 2
      else if full p s then 24 else 15
  | PBasis =>
      if negb (under p s) then 4
      else if full p s then (if reset s || est s then 21 else 17) else 10
  | PAfter =>
      if negb (under p s) then 3
      else if reset s || est s then 20 else 16
  end.

Lemma phase_lt : forall p s, phase p s < 32.
Proof.
  intros p s. unfold phase. destruct (pc s);
  repeat match goal with |- context [if ?b then _ else _] => destruct b end; lia.
Qed.

Definition rank (p : params) (G : nat) (s : st) : nat :=
  (p_maxOuter p - outer s) * (G + 1) + guesses s.

Lemma under_outer : forall p s, 0 < p_maxOuter p -> under p s = true -> outer s < p_maxOuter p.
Proof.
  intros p s H E. unfold under in E. apply andb_true_iff in E. destruct E as [_ E].
  apply orb_true_iff in E. destruct E as [E|E]; bools; lia.
Qed.

Lemma under_same : forall p s s', mv s' = mv s -> outer s' = outer s -> under p s' = under p s.
Proof. unfold under. intros p s s' -> ->. reflexivity. Qed.

Lemma step_rank : forall p o s G, 1 <= p_maxBlock p -> 0 < p_maxOuter p -> 0 < p_numEvals p ->
  inv p s -> legal p s o -> pc s <> PDone -> guesses s <= G -> o_bsz o < p_maxBasis p ->
  rank p G (step p o s) + 1 <= rank p G s \/
  (rank p G (step p o s) = rank p G s /\ phase p (step p o s) < phase p s).
Proof.
  intros p o s G H1 Ho HE I L Hp HG Hroom.
  unfold step. unfold phase at 2. destruct (pc s) eqn:Epc.
  - (* POuter *)
    right. destruct (under p s) eqn:Eu; [|split; [reflexivity|]; unfold phase; fields; cbn; lia].
    split; [reflexivity|]. unfold phase; fields.
    assert (goes_on p (set_pc PRestart (set_est false (set_blk 0 (set_reset false
             (set_nc (nl s) (set_isz (nl s) s)))))) = negb (whole s)) as ->.
    { unfold goes_on. fields. replace (nl s <? p_numEvals p) with true; auto.
      symmetry. apply Nat.ltb_lt.
      destruct (p_locking p) eqn:El.
      - rewrite (i_locked p s I El ltac:(rewrite Epc; discriminate)). destruct (i_outer p s I Epc); [auto|congruence].
      - rewrite (i_soft p s I El). auto. }
    rewrite (under_same p s) by reflexivity. rewrite Eu. unfold full. fields. cbn [negb].
    destruct (whole s); cbn [negb]; rewrite ?orb_true_r; destruct (p_maxBasis p <=? bsz s); lia.
  - (* PRestart *)
    right. pose proof (i_sync p s I (or_introl Epc)) as [Hs Hr].
    destruct ((nc s <? p_numEvals p) && under p s && negb (whole s)) eqn:Ec; split; auto;
      unfold phase; fields; rewrite (under_same p s) by reflexivity; unfold goes_on, full; fields.
    + bools. rewrite H0. cbn [negb]. rewrite (proj2 (Nat.ltb_lt _ _) H), H2. cbn [negb andb].
      rewrite Hr. cbn [orb]. destruct (p_maxBasis p <=? bsz s); destruct (est s); lia.
    + destruct (under p s); cbn [negb orb]; [|lia].
      rewrite andb_true_r in Ec. rewrite Ec.
      destruct (p_locking p); cbn [orb]; [lia|]. destruct (whole s); [lia|].
      destruct (p_maxBasis p <=? bsz s); lia.
  - (* PBasis *)
    destruct ((bsz s <? p_maxBasis p) && under p s) eqn:Ec.
    + left. apply andb_true_iff in Ec. destruct Ec as [Eb Eu]. apply Nat.ltb_lt in Eb.
      pose proof (under_outer p s Ho Eu) as Hlt.
      destruct (expand_spec p o s I L Epc Eb H1) as (X1 & _ & _ & _ & _ & X6 & _).
      unfold rank. rewrite X1, X6.
      replace (p_maxOuter p - outer s) with (S (p_maxOuter p - S (outer s))) by lia.
      cbn [Nat.mul]. lia.
    + right. split; auto. unfold phase, full. fields. rewrite (under_same p s) by reflexivity.
      destruct (under p s); cbn [negb]; [|lia]. rewrite andb_true_r in Ec. apply Nat.ltb_ge in Ec.
      rewrite (proj2 (Nat.leb_le _ _) Ec). destruct (reset s || est s); lia.
  - (* PAfter *)
    pose proof (after_spec p o s (i_bsz p s I) (l_bsz p s o L)) as X. cbn zeta in X.
    destruct X as [[X Hr]|(Hr & g & k & X1 & X2 & X3 & X4 & X5 & X6 & X8 & X9 & X10 & X11 & X13 & X14 & X16 & X17 & X18 & X19)].
    + right. rewrite X. split; auto. unfold phase, full. fields. rewrite (under_same p s) by reflexivity.
      destruct (under p s); cbn [negb]; [|lia].
      assert (reset s || est s = true) as ->.
      { apply orb_true_iff. destruct Hr as [Hr|[Hr|Hr]]; auto; right;
          destruct (est s) eqn:E; auto; [rewrite (l_tol p s o L E) in Hr|rewrite (l_reset2 p s o L E) in Hr];
          discriminate. }
      destruct (p_maxBasis p <=? bsz s); lia.
    + remember (after p o s) as s' eqn:Es. clear Es.
      destruct (Nat.eq_dec k 0) as [->|Nk].
      * right. assert (g = 0) by lia. subst g. unfold rank. rewrite X9, X6. split; [lia|].
        unfold phase, full. rewrite X8. rewrite (under_same p s s') by lia.
        destruct (under p s); cbn [negb]; [|lia].
        replace (p_maxBasis p <=? bsz s') with false by (symmetry; apply Nat.leb_gt; lia).
        destruct (goes_on p s'); destruct (reset s || est s); destruct (p_locking p || whole s'); lia.
      * left. unfold rank. rewrite X9, X6. lia.
  - (* PFinish *)
    right. unfold finish. destruct (p_locking p) eqn:El.
    + rewrite orb_true_r. cbn [orb].
      destruct ((p_numEvals p <=? nc s) || (bsz s =? 0)); split; auto; unfold phase; fields; lia.
    + rewrite orb_false_r. cbn zeta. fields.
      destruct (negb (under p s) || (p_numEvals p <=? o_ver o) || whole s) eqn:E; fields.
      * split; auto. unfold phase. fields.
        destruct (negb (under p s) || whole s); [lia|]. destruct (full p s); lia.
      * split; [reflexivity|]. apply orb_false_iff in E. destruct E as [E Ew].
        apply orb_false_iff in E. destruct E as [E _]. rewrite E, Ew. cbn [orb].
        unfold phase, full. fields. pose proof (l_bsz3 p s o L).
        match goal with |- context [negb ?b] => destruct (negb b) end; [destruct (p_maxBasis p <=? bsz s); lia|].
        destruct (Nat.leb_spec (p_maxBasis p) (o_bsz3 o)); [|destruct (p_maxBasis p <=? bsz s); lia].
        rewrite (proj2 (Nat.leb_le (p_maxBasis p) (bsz s))) by lia. lia.
  - congruence.
Qed.

Lemma bounded : forall p G s h s', 1 <= p_maxBlock p -> 0 < p_maxOuter p -> 0 < p_numEvals p ->
  inv p s -> guesses s <= G -> Forall (fun o => o_bsz o < p_maxBasis p) h -> steps p s h s' ->
  length h <= rank p G s * 32 + phase p s.
Proof.
  intros p G s h s' H1 Ho HE I HG F H. revert I HG F. induction H; intros I HG F; cbn [length]; [lia|].
  inversion F as [|? ? Fo Fh]; subst.
  pose proof (step_rank p o s G H1 Ho HE I H0 H HG Fo) as R.
  pose proof (step_mono p o s H1 I H0 H) as (_ & _ & M).
  specialize (IHsteps (inv_step p o s H1 I H0 H) ltac:(lia) Fh).
  pose proof (phase_lt p (step p o s)). lia.
Qed.
