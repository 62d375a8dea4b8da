(** C25: the dynamic choice of the method. *)
From Coq Require Import List Arith ZArith QArith Bool Lia Lqa.
From Verif Require Import DynModel.
Import ListNotations.
Open Scope Z_scope.

Definition few (locking : bool) (maxBasis numEvals n : nat) : bool :=
  (numEvals <? 5)%nat || saturates locking maxBasis numEvals n.

Ltac dyns := repeat match goal with
  | H : (?a && ?b)%bool = true |- _ => apply andb_true_iff in H; destruct H
  | H : (_ =? _) = true |- _ => apply Z.eqb_eq in H
  | H : (_ =? _) = false |- _ => apply Z.eqb_neq in H
  | H : (_ <? _) = true |- _ => apply Z.ltb_lt in H
  end.
Ltac cases := repeat match goal with
  | |- context [if ?b then _ else _] => let E := fresh "E" in destruct b eqn:E; cbn [dyn inner rightX seen restarts acc_jdq acc_gdk acc] in *
  end.

(** What one event may do. *)
Definition moves (d d' : Z) (e : event) : Prop :=
  d' = d \/
  (d = 1 /\ d' = 2 /\ exists m, e = ERestart m) \/
  (d = 2 /\ (d' = 1 \/ d' = -1) /\ exists c m, e = EOuter c m) \/
  (d = 3 /\ d' = 4 /\ exists c m, e = EOuter c m /\ (0 < c)%nat) \/
  (d = 4 /\ d' = 3 /\ exists c m, e = EOuter c m /\ (0 < c)%nat).

Lemma see_fields : forall m s, dyn (see m s) = dyn s /\ inner (see m s) = inner s /\
  rightX (see m s) = rightX s /\ restarts (see m s) = restarts s /\
  acc_jdq (see m s) = acc_jdq s /\ acc_gdk (see m s) = acc_gdk s /\ acc (see m s) = acc s.
Proof. intros. unfold see. cases; repeat split; auto. Qed.

Lemma step_moves : forall sat e s, moves (dyn s) (dyn (dyn_step sat e s)) e.
Proof.
  intros sat e s. unfold dyn_step, moves. destruct e as [c m|m].
  - destruct ((0 <? dyn s) && ((0 <? c)%nat || (dyn s =? 2)))%bool eqn:E0; [|auto].
    destruct (see_fields m s) as (H1 & _).
    destruct (m_ok m); [|left; auto]. rewrite H1.
    destruct (dyn s =? 3) eqn:E3; dyns.
    + assert (0 < c)%nat.
      { rewrite E3 in H0. cbn in H0. rewrite orb_false_r in H0. apply Nat.ltb_lt. auto. }
      unfold switch_from_GDpk, accumulate, use_jdq. rewrite H1, E3. cbn [Z.eqb Pos.eqb].
      cases; try (left; congruence); right; right; right; left; repeat split; auto; exists c, m; auto.
    + destruct ((dyn s =? 2) || (dyn s =? 4))%bool eqn:E24; [|left; auto].
      unfold switch_from_JDQMR, accumulate, use_gdk. rewrite H1.
      destruct (dyn s =? 2) eqn:E2; dyns; cbn [andb orb] in *.
      * cases; try (left; congruence); right; right; left; repeat split; auto; exists c, m; auto.
      * rewrite E24. dyns. rewrite orb_false_r in H0. apply Nat.ltb_lt in H0.
        cases; try (left; congruence); right; right; right; right; repeat split; auto; exists c, m; auto.
  - cbn [restarted dyn]. destruct (dyn s =? 1) eqn:E1; [|auto]. dyns.
    destruct (see_fields m (restarted s)) as (H1 & _). cbn [restarted dyn] in H1.
    unfold switch_from_GDpk, accumulate, use_jdq. rewrite H1, E1. cbn [Z.eqb Pos.eqb].
    cases; try (left; congruence); right; left; (split; [auto|]); (split; [auto|]); exists m; reflexivity.
Qed.

(** The method in use is the one of the state. *)
Definition method_of (s : dst) : Prop :=
  (dyn s = 1 \/ dyn s = 3 \/ dyn s = -1 -> inner s = 0) /\
  (dyn s = 2 \/ dyn s = 4 -> inner s = -1 /\ rightX s = false) /\
  (dyn s = -1 -> rightX s = true).

Lemma step_method : forall sat e s,
  (dyn s = 1 \/ dyn s = 2 \/ dyn s = 3 \/ dyn s = 4 \/ dyn s = -1) ->
  method_of s -> method_of (dyn_step sat e s).
Proof.
  intros sat e s D (M1 & M2 & M3). unfold dyn_step. destruct e as [c m|m].
  - destruct ((0 <? dyn s) && ((0 <? c)%nat || (dyn s =? 2)))%bool eqn:E0; [|repeat split; auto; apply M2; auto].
    destruct (see_fields m s) as (H1 & H2 & H3 & _).
    assert (Ms : method_of (see m s)).
    { unfold method_of. rewrite H1, H2, H3. auto. }
    destruct (m_ok m); [|exact Ms].
    destruct Ms as (N1 & N2 & N3).
    rewrite H1. destruct (dyn s =? 3) eqn:E3; dyns.
    + unfold switch_from_GDpk, accumulate, use_jdq. rewrite H1, E3. cbn [Z.eqb Pos.eqb].
      cases; unfold method_of; cbn [dyn inner rightX]; repeat split; auto; try (intros; lia); try (apply N2; auto);
        destruct D as [D|[D|[D|[D|D]]]]; intros; try lia; auto; try (apply N2; lia).
    + destruct ((dyn s =? 2) || (dyn s =? 4))%bool eqn:E24; [|repeat split; auto; apply N2; auto].
      unfold switch_from_JDQMR, accumulate, use_gdk. rewrite H1.
      destruct (dyn s =? 2) eqn:E2; dyns; cbn [andb orb] in *.
      * cases; unfold method_of; cbn [dyn inner rightX]; repeat split; auto; intros; try lia; apply N2; lia.
      * rewrite E24. dyns.
        cases; unfold method_of; cbn [dyn inner rightX]; repeat split; auto; intros; try lia; apply N2; lia.
  - cbn [restarted dyn]. destruct (dyn s =? 1) eqn:E1; [|unfold method_of; cbn; repeat split; auto; apply M2; auto]. dyns.
    destruct (see_fields m (restarted s)) as (H1 & H2 & H3 & _). cbn [restarted dyn inner rightX] in H1, H2, H3.
    unfold switch_from_GDpk, accumulate, use_jdq. rewrite H1, E1. cbn [Z.eqb Pos.eqb].
    cases; unfold method_of; cbn [dyn inner rightX]; rewrite ?H1, ?H2, ?H3; repeat split; auto; intros; try lia; auto; apply M2; lia.
Qed.

(** C25.  The choice stays within its strategy: with few pairs wanted between states 1 and
    2, or at GD+k for good; with many between 3 and 4; and the method that runs is
    the one of the state. *)
Theorem C25_states : forall locking maxBasis numEvals n x h,
  let s0 := dyn_start locking maxBasis numEvals n x in
  let s := dyn_run (saturates locking maxBasis numEvals n) h s0 in
  (if few locking maxBasis numEvals n then dyn s = 1 \/ dyn s = 2 \/ dyn s = -1
   else dyn s = 3 \/ dyn s = 4) /\
  (dyn s = 1 \/ dyn s = 3 \/ dyn s = -1 -> inner s = 0) /\
  (dyn s = 2 \/ dyn s = 4 -> inner s = -1 /\ rightX s = false) /\
  (dyn s = -1 -> rightX s = true).
Proof.
  intros lk mb ne n x h s0 s.
  set (good := fun d => if few lk mb ne n then d = 1 \/ d = 2 \/ d = -1 else d = 3 \/ d = 4).
  assert (J : forall h s1, good (dyn s1) -> method_of s1 ->
    good (dyn (dyn_run (saturates lk mb ne n) h s1)) /\ method_of (dyn_run (saturates lk mb ne n) h s1)).
  { clear h s. induction h as [|e h IH]; intros s1 G M; [auto|]. cbn [dyn_run]. apply IH.
    - pose proof (step_moves (saturates lk mb ne n) e s1) as V. unfold good in *. unfold moves in V.
      destruct (few lk mb ne n); lia.
    - apply step_method; auto. unfold good in G. destruct (few lk mb ne n); tauto. }
  apply J.
  - unfold good, s0, dyn_start, few. cbn [dyn]. destruct (_ || _)%bool; auto.
  - unfold method_of, s0, dyn_start. cbn [dyn inner rightX]. destruct (_ || _)%bool; repeat split; intros; auto; lia.
Qed.

(** Every event moves only between the two methods of the strategy: from 1 to 2 at a
    restart only, from 2 to 1 or to -1, and between 3 and 4 when pairs converged. *)
Theorem C25_moves : forall sat e s, moves (dyn s) (dyn (dyn_step sat e s)) e.
Proof. exact step_moves. Qed.

(** A switch needs evidence: GD+k is left when JDQMR has never been measured or its
    expected time is less than 0.95 of that of GD+k; JDQMR is left when the ratio is
    over 1.05. *)
Definition meas_of (e : event) : meas := match e with EOuter _ m => m | ERestart m => m end.
Theorem C25_evidence : forall sat e s,
  dyn (dyn_step sat e s) <> dyn s ->
  (inner (dyn_step sat e s) = -1 -> seen s = false \/ (m_ratio (meas_of e) < 95 # 100)%Q) /\
  (inner (dyn_step sat e s) = 0 ->
     (m_ratio (meas_of e) > 105 # 100)%Q \/ (m_best (meas_of e) > 105 # 100)%Q).
Proof.
  intros sat e s. unfold dyn_step. destruct e as [c m|m]; cbn [meas_of].
  - destruct ((0 <? dyn s) && ((0 <? c)%nat || (dyn s =? 2)))%bool eqn:E0; [|congruence].
    destruct (see_fields m s) as (H1 & H2 & _).
    destruct (m_ok m); [|intros X; congruence].
    rewrite H1. destruct (dyn s =? 3) eqn:E3; dyns.
    + assert (Hs : seen (see m s) = seen s).
      { unfold see. rewrite E3. rewrite andb_false_r. reflexivity. }
      unfold switch_from_GDpk, accumulate, use_jdq. rewrite H1, Hs, E3. cbn [Z.eqb Pos.eqb].
      destruct ((restarts (see m s) =? 0)%nat || sat)%bool; [congruence|].
      destruct (seen s); cbn [negb].
      * unfold Qlt. destruct (Qle_bool (95 # 100) (m_ratio m)) eqn:Eq; cbn [negb dyn inner]; intros X; [congruence|].
        split; [intros _; right|intros; lia].
        apply Qnot_le_lt. intros L. apply Qle_bool_iff in L. congruence.
      * cbn [dyn inner]. intros _. split; [auto|intros; lia].
    + destruct ((dyn s =? 2) || (dyn s =? 4))%bool eqn:E24; [|congruence].
      unfold switch_from_JDQMR, accumulate, use_gdk. rewrite H1.
      assert (G : forall q r, Qgt q r = true -> (q > r)%Q).
      { unfold Qgt. intros q r E. apply negb_true_iff in E. apply Qnot_le_lt. intros L. apply Qle_bool_iff in L. congruence. }
      destruct (dyn s =? 2) eqn:E2; dyns; cbn [andb orb] in *.
      * destruct (Qgt (m_best m) (105 # 100)) eqn:Eb; cbn [dyn inner].
        { intros _. split; [intros; lia|]. intros _. right. apply G. auto. }
        destruct (Qgt (m_ratio m) (105 # 100)) eqn:Er; cbn [dyn inner]; [|congruence].
        intros _. split; [intros; lia|]. intros _. left. apply G. auto.
      * destruct (Qgt (m_ratio m) (105 # 100)) eqn:Er; cbn [dyn inner]; [|congruence].
        intros _. split; [intros; lia|]. intros _. left. apply G. auto.
  - cbn [restarted dyn]. destruct (dyn s =? 1) eqn:E1; [|cbn [dyn restarted]; congruence]. dyns.
    destruct (see_fields m (restarted s)) as (H1 & H2 & _). cbn [restarted dyn inner rightX] in H1, H2.
    assert (Hs : seen (see m (restarted s)) = seen s).
    { unfold see. cbn [restarted dyn]. rewrite E1. rewrite andb_false_r. reflexivity. }
    unfold switch_from_GDpk, accumulate, use_jdq. rewrite H1, Hs, E1. cbn [Z.eqb Pos.eqb].
    destruct ((restarts (see m (restarted s)) =? 0)%nat || sat)%bool; [congruence|].
    destruct (seen s); cbn [negb].
    + unfold Qlt. destruct (Qle_bool (95 # 100) (m_ratio m)) eqn:Eq; cbn [negb dyn inner]; intros X; [congruence|].
      split; [intros _; right|intros; lia].
      apply Qnot_le_lt. intros L. apply Qle_bool_iff in L. congruence.
    + cbn [dyn inner]. intros _. split; [auto|intros; lia].
Qed.

(** A measurement in which even the best case of JDQMR is slower ends the comparison:
    GD+k stays for the rest of the call. *)
Theorem C25_permanent : forall sat conv m h s,
  dyn s = 2 -> m_ok m = true -> (m_best m > 105 # 100)%Q ->
  let s' := dyn_run sat (EOuter conv m :: h) s in
  dyn s' = -1 /\ inner s' = 0 /\ recommend s' = -1.
Proof.
  intros sat conv m h s D K B.
  assert (E : dyn_step sat (EOuter conv m) s = use_gdk (-1) (see m s)).
  { unfold dyn_step. rewrite D, K. replace ((0 <? 2) && ((0 <? conv)%nat || (2 =? 2)))%bool with true
      by (destruct (0 <? conv)%nat; reflexivity).
    destruct (see_fields m s) as (H1 & _). rewrite H1, D. cbn [Z.eqb Pos.eqb orb].
    unfold switch_from_JDQMR. rewrite H1, D.
    replace (Qgt (m_best m) (105 # 100)) with true; [reflexivity|]. symmetry.
    clear - B. unfold Qgt, Qlt in *. destruct (Qle_bool (m_best m) (105 # 100)) eqn:E; [|reflexivity].
    exfalso. apply Qle_bool_iff in E. apply (Qle_not_lt _ _ E). exact B. }
  cbn [dyn_run]. rewrite E.
  assert (J : forall h s1, dyn s1 = -1 -> inner s1 = 0 ->
     dyn (dyn_run sat h s1) = -1 /\ inner (dyn_run sat h s1) = 0).
  { clear. induction h as [|e h IH]; intros s1 D I; [auto|]. cbn [dyn_run]. apply IH.
    - destruct e; unfold dyn_step; [rewrite D|unfold restarted; cbn [dyn]; rewrite D]; cbn; auto.
    - destruct e; unfold dyn_step; [rewrite D|unfold restarted; cbn [dyn]; rewrite D]; cbn; auto. }
  destruct (J h (use_gdk (-1) (see m s)) eq_refl eq_refl) as [J1 J2].
  split; [auto|]. split; [auto|]. unfold recommend. rewrite J1. reflexivity.
Qed.

(** If the basis would saturate the space, or before the first restart, the choice is
    and stays GD+k. *)
Theorem C25_gdk_only : forall locking maxBasis numEvals n x h,
  saturates locking maxBasis numEvals n = true \/ (forall m, ~ In (ERestart m) h) ->
  let s0 := dyn_start locking maxBasis numEvals n x in
  let s := dyn_run (saturates locking maxBasis numEvals n) h s0 in
  dyn s = dyn s0 /\ inner s = 0 /\ rightX s = x.
Proof.
  intros lk mb ne n x h H s0 s.
  assert (J : forall h s1, (saturates lk mb ne n = true \/ ((forall m, ~ In (ERestart m) h) /\ restarts s1 = 0%nat)) ->
    dyn s1 = 1 \/ dyn s1 = 3 ->
    let s' := dyn_run (saturates lk mb ne n) h s1 in
    dyn s' = dyn s1 /\ inner s' = inner s1 /\ rightX s' = rightX s1).
  { clear. induction h as [|e h IH]; intros s1 H D; [repeat split|]. cbn [dyn_run].
    assert (X : dyn (dyn_step (saturates lk mb ne n) e s1) = dyn s1 /\
                inner (dyn_step (saturates lk mb ne n) e s1) = inner s1 /\
                rightX (dyn_step (saturates lk mb ne n) e s1) = rightX s1 /\
                (saturates lk mb ne n = true \/
                  ((forall m, ~ In (ERestart m) h) /\ restarts (dyn_step (saturates lk mb ne n) e s1) = 0%nat))).
    { destruct e as [c m|m]; cbn [dyn_step].
      - destruct (see_fields m s1) as (H1 & H2 & H3 & H4 & _).
        assert (Hr : saturates lk mb ne n = true \/ (forall m, ~ In (ERestart m) h) /\ restarts s1 = 0%nat).
        { destruct H as [H|[H Hr]]; auto. right. split; auto. intros m0 Hm. apply (H m0). right. auto. }
        destruct ((0 <? dyn s1) && ((0 <? c)%nat || (dyn s1 =? 2)))%bool; [|repeat split; auto].
        destruct (m_ok m); [|rewrite H1, H2, H3, H4; auto].
        rewrite H1. destruct (dyn s1 =? 3) eqn:E3.
        + unfold switch_from_GDpk. rewrite H4.
          assert (((restarts s1 =? 0)%nat || saturates lk mb ne n)%bool = true) as ->.
          { destruct Hr as [Hr|[_ Hr]]; rewrite Hr; auto. apply orb_true_r. }
          rewrite H1, H2, H3, H4. auto.
        + destruct ((dyn s1 =? 2) || (dyn s1 =? 4))%bool eqn:E24.
          * exfalso. apply orb_true_iff in E24. destruct E24; dyns; lia.
          * rewrite H1, H2, H3, H4. auto.
      - destruct H as [H|[H _]]; [|exfalso; apply (H m); left; reflexivity].
        destruct (see_fields m (restarted s1)) as (H1 & H2 & H3 & H4 & _).
        destruct (dyn (restarted s1) =? 1); [|cbn; auto].
        unfold switch_from_GDpk. rewrite H, orb_true_r. rewrite H1, H2, H3, H4. cbn. auto. }
    destruct X as (X1 & X2 & X3 & X4).
    destruct (IH (dyn_step (saturates lk mb ne n) e s1) X4 ltac:(lia)) as (Y1 & Y2 & Y3).
    rewrite Y1, Y2, Y3. auto. }
  destruct (J h s0) as (X1 & X2 & X3).
  - destruct H; auto.
  - unfold s0, dyn_start. cbn. destruct (_ || _)%bool; auto.
  - auto.
Qed.

(** The number behind the recommendation lies between the least and the greatest measured
    ratio, or is 1 if nothing was compared. *)
Definition within (lo hi : Q) (s : dst) : Prop :=
  (acc_jdq s == 0 /\ acc_gdk s == 0 /\ acc s = 1)%Q \/
  (0 < acc_gdk s /\ lo * acc_gdk s <= acc_jdq s <= hi * acc_gdk s /\ acc s == acc_jdq s / acc_gdk s)%Q.

Lemma within_same : forall lo hi s t, acc_jdq t = acc_jdq s -> acc_gdk t = acc_gdk s -> acc t = acc s ->
  within lo hi s -> within lo hi t.
Proof. unfold within. intros lo hi s t -> -> ->. auto. Qed.

Lemma within_accumulate : forall lo hi m s, (0 < m_weight m)%Q -> (lo <= m_ratio m <= hi)%Q ->
  within lo hi s -> within lo hi (accumulate m s).
Proof.
  intros lo hi m s Hw [H1 H2] W. unfold within, accumulate. cbn [acc_jdq acc_gdk acc]. right.
  assert (0 <= acc_gdk s)%Q by (destruct W as [(_ & W & _)|(W & _)]; [rewrite W; lra|lra]).
  assert (lo * acc_gdk s <= acc_jdq s <= hi * acc_gdk s)%Q as [W1 W2].
  { destruct W as [(W1 & W2 & _)|(_ & W & _)]; [rewrite W1, W2; lra|auto]. }
  split; [lra|]. split; [|reflexivity]. split; nra.
Qed.

Lemma step_within : forall lo hi sat e s,
  (0 < m_weight (meas_of e))%Q -> (lo <= m_ratio (meas_of e) <= hi)%Q ->
  within lo hi s -> within lo hi (dyn_step sat e s).
Proof.
  intros lo hi sat e s Hw Hr W.
  destruct e as [c m|m]; cbn [dyn_step meas_of] in *.
  - destruct (see_fields m s) as (_ & _ & _ & _ & H5 & H6 & H7).
    assert (Ws : within lo hi (see m s)) by (apply (within_same lo hi s); auto).
    destruct ((0 <? dyn s) && ((0 <? c)%nat || (dyn s =? 2)))%bool; [|auto].
    destruct (m_ok m); [|auto].
    destruct (dyn (see m s) =? 3).
    + unfold switch_from_GDpk. destruct (_ || sat)%bool; [auto|].
      destruct (negb (seen (see m s))); [apply (within_same lo hi (see m s)); auto|].
      apply within_accumulate; auto. destruct (Qlt _ _); auto.
    + destruct (_ || (dyn (see m s) =? 4))%bool; [|auto].
      unfold switch_from_JDQMR. destruct (_ && Qgt (m_best m) _)%bool; [apply (within_same lo hi (see m s)); auto|].
      apply within_accumulate; auto. destruct (Qgt _ _); auto.
  - destruct (see_fields m (restarted s)) as (_ & _ & _ & _ & H5 & H6 & H7).
    assert (Ws : within lo hi (see m (restarted s))) by (apply (within_same lo hi s); auto).
    destruct (dyn (restarted s) =? 1); [|apply (within_same lo hi s); auto].
    unfold switch_from_GDpk. destruct (_ || sat)%bool; [auto|].
    destruct (negb (seen (see m (restarted s)))); [apply (within_same lo hi (see m (restarted s))); auto|].
    apply within_accumulate; auto. destruct (Qlt _ _); auto.
Qed.

Theorem C25_average : forall locking maxBasis numEvals n x h lo hi,
  Forall (fun e => 0 < m_weight (meas_of e) /\ lo <= m_ratio (meas_of e) <= hi)%Q h ->
  let s := dyn_run (saturates locking maxBasis numEvals n) h (dyn_start locking maxBasis numEvals n x) in
  (acc_gdk s == 0 /\ acc s = 1)%Q \/ (0 < acc_gdk s /\ lo <= acc s <= hi)%Q.
Proof.
  intros lk mb ne n x h lo hi F s.
  assert (W : within lo hi s).
  { unfold s. assert (W0 : within lo hi (dyn_start lk mb ne n x)).
    { left. unfold dyn_start. cbn. repeat split; reflexivity. }
    revert W0. generalize (dyn_start lk mb ne n x) as s0. clear s.
    induction F as [|e h [F1 F2] F IH]; intros s0 W0; [auto|]. cbn [dyn_run]. apply IH.
    apply step_within; auto. }
  destruct W as [(W1 & W2 & W3)|(W1 & [W2 W3] & W4)]; [left; auto|right].
  split; auto. rewrite W4. split.
  - apply Qle_shift_div_l; auto.
  - apply Qle_shift_div_r; auto.
Qed.

(** So the recommendation follows the measurements: JDQMR if every measured ratio was
    below 0.96, GD+k if every one was over 1.04, to measure again if all were between
    or nothing was compared; and GD+k if that was already decided for good. *)
Theorem C25_recommendation : forall locking maxBasis numEvals n x h lo hi,
  Forall (fun e => 0 < m_weight (meas_of e) /\ lo <= m_ratio (meas_of e) <= hi)%Q h ->
  let s := dyn_run (saturates locking maxBasis numEvals n) h (dyn_start locking maxBasis numEvals n x) in
  (recommend s = -1 \/ recommend s = -2 \/ recommend s = -3) /\
  (dyn s = -1 -> recommend s = -1) /\
  (0 < dyn s ->
    ((acc_gdk s == 0)%Q -> recommend s = -3) /\
    ((0 < acc_gdk s)%Q ->
      ((hi < 96 # 100)%Q -> recommend s = -2) /\
      ((104 # 100 < lo)%Q -> recommend s = -1) /\
      ((96 # 100 <= lo)%Q -> (hi <= 104 # 100)%Q -> recommend s = -3))).
Proof.
  intros lk mb ne n x h lo hi F s.
  pose proof (C25_average lk mb ne n x h lo hi F) as A. cbn zeta in A. fold s in A.
  pose proof (C25_states lk mb ne n x h) as [D _]. cbn zeta in D. fold s in D.
  assert (T : forall a b, Qle_bool a b = true <-> (a <= b)%Q) by (intros; apply Qle_bool_iff).
  assert (T' : forall a b, Qle_bool a b = false <-> (b < a)%Q).
  { intros a b. split.
    - intros E. apply Qnot_le_lt. intros L. apply T in L. congruence.
    - intros L. destruct (Qle_bool a b) eqn:E; auto. apply T in E. lra. }
  assert (dyn s = -1 \/ 0 < dyn s) as Dc by (destruct (few lk mb ne n); lia).
  unfold recommend, Qlt, Qgt.
  split; [|split].
  - destruct (0 <? dyn s) eqn:E; [|apply Z.ltb_ge in E; lia].
    repeat match goal with |- context [if ?b then _ else _] => destruct b end; auto.
  - intros ->. reflexivity.
  - intros Hd. replace (0 <? dyn s) with true by (symmetry; apply Z.ltb_lt; auto).
    split; [|intros Hg; split; [|split]].
    + intros Hg. destruct A as [[_ A]|[A _]]; [|lra].
      rewrite (proj2 (T (96 # 100) (acc s))) by (rewrite A; lra).
      rewrite (proj2 (T (acc s) (104 # 100))) by (rewrite A; lra). reflexivity.
    + intros Hh. destruct A as [[A _]|[_ A]]; [lra|].
      rewrite (proj2 (T' (96 # 100) (acc s))) by lra. reflexivity.
    + intros Hh. destruct A as [[A _]|[_ A]]; [lra|].
      rewrite (proj2 (T (96 # 100) (acc s))) by lra. cbn [negb].
      rewrite (proj2 (T' (acc s) (104 # 100))) by lra. reflexivity.
    + intros H1 H2. destruct A as [[A _]|[_ A]]; [lra|].
      rewrite (proj2 (T (96 # 100) (acc s))) by lra. cbn [negb].
      rewrite (proj2 (T (acc s) (104 # 100))) by lra. reflexivity.
Qed.

(** A run: restart, first JDQMR measurements, slow, back to GD+k; GD+k is recommended. *)
Definition slow : meas := Meas true true (1 # 2) (12 # 10) 1.
Example C25_example :
  let s := dyn_run (saturates true 20 3 1000) [ERestart slow; EOuter 0 slow; ERestart slow]
             (dyn_start true 20 3 1000 false) in
  dyn s = 1 /\ inner s = 0 /\ restarts s = 2%nat /\ recommend s = -1 /\ (0 < acc_gdk s)%Q.
Proof. repeat split. Qed.

(** The slowdown used in the ratio is between 1.1 and 2.5 whatever the measured rates,
    also if they are not numbers: it is one of the two bounds or compares as
    between them. *)
Theorem C25_slowdown : forall F (lt : F -> F -> bool) one low high eqb div sub ln opp ratio gdk jdq,
  (forall a, lt a a = false) -> lt high low = false -> lt low high = true ->
  let r := slowdown lt one low high eqb div sub ln opp ratio gdk jdq in
  lt r low = false /\ (r = high \/ lt r high = true).
Proof.
  intros F lt one low high eqb div sub ln opp ratio gdk jdq Hi Hl Hh r. unfold r, slowdown.
  generalize (fmax lt (div ratio (sub ratio one)) (fmin lt (rate_slowdown lt one low high eqb div ln opp gdk jdq) ratio)).
  intros y. unfold fmax, fmin.
  destruct (lt y high) eqn:E1.
  - destruct (lt y low) eqn:E2; auto.
  - rewrite Hl. auto.
Qed.

(** The recommendation is written only at the regular ends of the iteration.  If the
    iteration leaves through the limit after a reset (main_iter.c 1199, 445) the
    member still holds the internal state, which is none of the documented values. *)
Theorem C25_exit_refuted : forall locking maxBasis numEvals n x h,
  let s := dyn_run (saturates locking maxBasis numEvals n) h (dyn_start locking maxBasis numEvals n x) in
  dyn s <> -1 -> dyn s <> -2 /\ dyn s <> -3 /\ 0 < dyn s.
Proof.
  intros lk mb ne n x h s Hd. pose proof (C25_states lk mb ne n x h) as [D _]. cbn zeta in D. fold s in D.
  destruct (few lk mb ne n); lia.
Qed.

(** GD+k is meant to run with RightX = 1, as after every switch to it; the first GD+k
    phase runs with the value it finds, which primme_set_method leaves at 0. *)
Theorem C25_first_phase_refuted : exists locking maxBasis numEvals n h,
  let s0 := dyn_start locking maxBasis numEvals n false in
  let s := dyn_run (saturates locking maxBasis numEvals n) h s0 in
  inner s0 = 0 /\ rightX s0 = false /\ dyn s = dyn s0 /\ inner s = 0 /\ rightX s = true.
Proof.
  exists true, 20%nat, 3%nat, 1000%nat, [ERestart slow; EOuter 0 slow; ERestart slow].
  repeat split.
Qed.

(** Whether JDQMR has been measured is decided by each process on its own clock: equal
    histories but for that bit lead to different methods. *)
Definition unseen : meas := Meas true false (1 # 2) (12 # 10) 1.
Definition fair : meas := Meas true true (1 # 2) 1 1.
Definition fair0 : meas := Meas true false (1 # 2) (12 # 10) 1.
Theorem C25_processes_refuted : exists locking maxBasis numEvals n h1 h2,
  map (fun e => match e with
                | EOuter c m => (true, c, m_ok m, m_best m, m_ratio m, m_weight m)
                | ERestart m => (false, 0%nat, m_ok m, m_best m, m_ratio m, m_weight m) end) h1 =
  map (fun e => match e with
                | EOuter c m => (true, c, m_ok m, m_best m, m_ratio m, m_weight m)
                | ERestart m => (false, 0%nat, m_ok m, m_best m, m_ratio m, m_weight m) end) h2 /\
  inner (dyn_run (saturates locking maxBasis numEvals n) h1 (dyn_start locking maxBasis numEvals n true)) <>
  inner (dyn_run (saturates locking maxBasis numEvals n) h2 (dyn_start locking maxBasis numEvals n true)).
Proof.
  exists true, 20%nat, 3%nat, 1000%nat,
    [ERestart slow; EOuter 0 slow; ERestart slow], [ERestart slow; EOuter 0 unseen; ERestart slow].
  split; [reflexivity|]. vm_compute. discriminate.
Qed.

(** The sums of the averaging window are divided by the number of pairs each method
    found, zero for JDQMR if ten pairs converge before it ran: from then on its rate is
    not a number, for the rest of the call. *)
Theorem C25_window_refuted : forall conv total lg nMV,
  (10 <= total)%nat ->
  let w := win_update false conv total lg nMV win_start in
  jdq_log w = None /\
  forall h : list (bool * nat * nat * Q * Q),
    jdq_log (fold_left (fun w e => match e with (j, c, t, l, k) => win_update j c t l k w end) h w) = None.
Proof.
  intros conv total lg nMV H w.
  assert (E : jdq_log w = None).
  { unfold w, win_update, win_start. cbn [nextReset].
    assert (R : (1 <=? total / 10)%nat = true).
    { apply Nat.leb_le. change 1%nat with (10 / 10)%nat. apply Nat.div_le_mono; lia. }
    destruct (0 <? conv)%nat; cbn [nextReset gdk_log gdk_MV nevals_gdk jdq_log jdq_MV nevals_jdq];
      rewrite R; reflexivity. }
  split; auto. intros h. revert E. generalize w. clear w.
  induction h as [|[[[[j c] t] l] k] h IH]; intros w E; [auto|]. cbn [fold_left]. apply IH.
  unfold win_update. destruct (0 <? c)%nat, j; cbn [nextReset gdk_log gdk_MV nevals_gdk jdq_log jdq_MV nevals_jdq];
    destruct (_ <=? t / 10)%nat; cbn [nextReset gdk_log gdk_MV nevals_gdk jdq_log jdq_MV nevals_jdq];
    rewrite E; reflexivity.
Qed.

(** The averages are started afresh at most once for every ten pairs found: an update
    leaves the next restart of the window after the current ten, and while no further ten
    is complete the number of pairs each method is credited with does not fall. *)
Theorem C25_window_once : forall j c t lg nMV w j' c' t' lg' nMV',
  (t' / 10 = t / 10)%nat ->
  let w1 := win_update j c t lg nMV w in
  let w2 := win_update j' c' t' lg' nMV' w1 in
  (t / 10 < nextReset w1)%nat /\ nextReset w2 = nextReset w1 /\
  nevals_gdk w2 = (nevals_gdk w1 + (if j' then 0 else c'))%nat /\
  nevals_jdq w2 = (nevals_jdq w1 + (if j' then c' else 0))%nat.
Proof.
  intros j c t lg nMV w j' c' t' lg' nMV' H w1 w2.
  assert (A : (t / 10 < nextReset w1)%nat).
  { unfold w1, win_update. cbv zeta.
    destruct (0 <? c)%nat, j; cbn [nextReset];
      match goal with |- context [(?a <=? ?b)%nat] => destruct (Nat.leb_spec a b) end; cbn [nextReset] in *; lia. }
  split; [exact A|]. unfold w2, win_update. cbv zeta. rewrite H.
  destruct (Nat.ltb_spec 0 c') as [Hc|Hc], j'; cbn [nextReset];
    (destruct (Nat.leb_spec (nextReset w1) (t / 10)); [lia|]);
    cbn [nextReset nevals_gdk nevals_jdq]; repeat split; lia.
Qed.
Print Assumptions C25_window_once.
Example C25_window_once_witness :
  let w := win_update false 2 11 1 1 win_start in
  nextReset w = 2%nat /\ nextReset (win_update true 1 12 1 1 w) = 2%nat /\
  nextReset (win_update true 9 20 1 1 w) = 3%nat.
Proof. vm_compute. repeat split. Qed.

Print Assumptions C25_states.
Print Assumptions C25_moves.
Print Assumptions C25_evidence.
Print Assumptions C25_gdk_only.
Print Assumptions C25_average.
Print Assumptions C25_recommendation.
Print Assumptions C25_slowdown.
Print Assumptions C25_exit_refuted.
Print Assumptions C25_first_phase_refuted.
Print Assumptions C25_processes_refuted.
Print Assumptions C25_window_refuted.
Print Assumptions C25_permanent.
