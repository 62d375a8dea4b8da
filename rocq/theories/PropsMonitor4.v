(** C61: how often the inner iterations are reported. *)
From Coq Require Import List Arith Lia Bool Permutation.
From Verif Require Import Base PermModel PermProofs InnerModel InnerProofs InnerReports PropsInner.
Import ListNotations.

(** The systems still being solved. *)
Definition active (s : inner) : list nat := firstn (bs s) (sys s).

Lemma in_active : forall s x, In x (active s) <-> exists k, k < bs s /\ nth_error (sys s) k = Some x.
Proof.
  intros s x. unfold active. split.
  - intros H. apply In_nth_error in H. destruct H as [k H].
    assert (L : k < length (firstn (bs s) (sys s))) by (apply nth_error_Some; congruence).
    rewrite firstn_length in L. exists k. split; [lia|].
    rewrite <- H. symmetry. rewrite <- (firstn_skipn (bs s) (sys s)) at 2.
    rewrite nth_error_app1; [reflexivity|rewrite firstn_length; lia].
  - intros (k & L & H). assert (L2 : k < length (sys s)) by (apply nth_error_Some; congruence).
    rewrite <- (firstn_skipn (bs s) (sys s)) in H.
    rewrite nth_error_app1 in H by (rewrite firstn_length; lia).
    eapply nth_error_In. exact H.
Qed.

Lemma perm_nodup : forall p n, is_perm p n -> NoDup p.
Proof. intros p n H. eapply Permutation_NoDup; [apply Permutation_sym; exact H|apply seq_NoDup]. Qed.

Lemma same_place : forall (l : list nat) i j x, NoDup l -> nth_error l i = Some x -> nth_error l j = Some x -> i = j.
Proof.
  intros l i j x N H1 H2. rewrite NoDup_nth_error in N. apply N.
  - apply nth_error_Some. congruence.
  - congruence.
Qed.

Lemma active_phase : forall nx n s fin s', aligned n s -> length fin = bs s -> phase nx fin s = Some s' ->
  aligned n s' /\
  (forall x, In x (active s') <-> exists k, nth_error (sys s) k = Some x /\ nth_error fin k = Some false).
Proof.
  intros nx n s fin s' A L P.
  assert (A' : aligned n s').
  { destruct (phase_spec nx n fin s A L) as (s2 & p0 & P1 & _ & P3 & _). rewrite P in P1. injection P1 as P1. subst s2. exact P3. }
  split; [exact A'|].
  destruct (phase_full nx n fin s A L) as (s2 & P2 & Q1 & Q2 & Q3 & Q4 & _).
  rewrite P in P2. injection P2 as P2. subst s2.
  pose proof (perm_nodup _ _ Q2) as ND.
  assert (PS : is_perm (sys s) n) by (destruct A; assumption).
  intros x. rewrite in_active. split.
  - intros (j & Hj & Ej).
    assert (In x (sys s)) as I.
    { apply Permutation_in with (l := seq 0 n); [apply Permutation_sym; exact PS|].
      apply Permutation_in with (l := sys s'); [exact Q2|]. eapply nth_error_In; exact Ej. }
    apply In_nth_error in I. destruct I as [k Ek]. exists k. split; [exact Ek|].
    destruct (le_lt_dec (bs s) k) as [G|G].
    + rewrite <- (Q4 k G) in Ek. pose proof (same_place _ _ _ _ ND Ek Ej). subst. lia.
    + destruct (Q3 k x G Ek) as (j' & E' & _ & T & F).
      pose proof (same_place _ _ _ _ ND E' Ej). subst j'.
      destruct (nth_error fin k) as [[]|] eqn:FK; [specialize (T eq_refl); lia|reflexivity|].
      apply nth_error_None in FK. lia.
  - intros (k & Ek & FK).
    assert (k < bs s) as G by (rewrite <- L; apply nth_error_Some; congruence).
    destruct (Q3 k x G Ek) as (j' & E' & _ & _ & F). exists j'. split; [apply F; exact FK|exact E'].
Qed.

Lemma reported_in : forall fin sysl it x i, In (x, i) (reported fin sysl it) <->
  i = it /\ exists k, nth_error sysl k = Some x /\ nth_error fin k = Some false.
Proof.
  induction fin as [|b fin IH]; intros sysl it x i.
  - cbn. split; [contradiction|]. intros (_ & k & _ & H). destruct k; discriminate.
  - destruct sysl as [|y sysl].
    + destruct b; cbn; (split; [contradiction|intros (_ & k & H & _); destruct k; discriminate]).
    + destruct b; cbn [reported].
      * rewrite IH. split; intros (E & k & H1 & H2); (split; [exact E|]).
        -- exists (S k). auto.
        -- destruct k; [discriminate|]. exists k. auto.
      * cbn [In]. rewrite IH. split.
        -- intros [E|(E & k & H1 & H2)].
           ++ injection E as E1 E2. subst. split; [reflexivity|]. exists 0. auto.
           ++ split; [exact E|]. exists (S k). auto.
        -- intros (E & k & H1 & H2). destruct k as [|k].
           ++ left. cbn in H1. injection H1 as H1. congruence.
           ++ right. split; [exact E|]. exists k. auto.
Qed.

Lemma reported_nodup : forall fin sysl it, NoDup sysl -> NoDup (reported fin sysl it).
Proof.
  induction fin as [|b fin IH]; intros sysl it N; [constructor|].
  destruct sysl as [|y sysl]; [destruct b; constructor|].
  inversion N as [|? ? N1 N2]; subst. destruct b; cbn [reported]; [auto|].
  constructor; [|auto]. rewrite reported_in. intros (_ & k & H & _). apply N1. eapply nth_error_In; exact H.
Qed.

Lemma nodup_app : forall (X : Type) (a b : list X), NoDup a -> NoDup b ->
  (forall x, In x a -> In x b -> False) -> NoDup (a ++ b).
Proof.
  induction a as [|x a IH]; intros b Na Nb D; [exact Nb|].
  inversion Na as [|? ? N1 N2]; subst. cbn. constructor.
  - rewrite in_app_iff. intros [H|H]; [auto|]. apply (D x); [left; reflexivity|exact H].
  - apply IH; auto. intros y H1 H2. apply (D y); [right; exact H1|exact H2].
Qed.

Lemma run_facts : forall nx n max h it s s' done r, aligned n s -> it <= max ->
  inner_run nx max it h s = Some (s', done, r) ->
  it <= done <= max /\ NoDup r /\
  (forall x i, In (x, i) r -> In x (active s) /\ x < n /\ it <= i < done) /\
  (forall x i, In (x, S i) r -> it <= i -> In (x, i) r) /\
  (forall x, In x (active s') -> In x (active s) /\ forall i, it <= i < done -> In (x, i) r).
Proof.
  intros nx n max h. induction h as [|[f1 f2] h IH]; intros it s s' done r A IM H; cbn [inner_run] in H.
  - injection H as H1 H2 H3. subst. split; [lia|]. split; [constructor|].
    split; [contradiction|]. split; [contradiction|]. intros x I. split; [exact I|]. intros; lia.
  - destruct ((it <? max) && (0 <? bs s)) eqn:G.
    2: { injection H as H1 H2 H3. subst. split; [lia|]. split; [constructor|].
         split; [contradiction|]. split; [contradiction|]. intros x I. split; [exact I|]. intros; lia. }
    apply andb_true_iff in G. destruct G as [G1 G2]. apply Nat.ltb_lt in G1, G2.
    destruct (length f1 =? bs s) eqn:L1; [|discriminate]. apply Nat.eqb_eq in L1.
    destruct (phase nx f1 s) as [s1|] eqn:P1; [|discriminate]. cbn [bind] in H.
    destruct (active_phase nx n s f1 s1 A L1 P1) as [A1 X1].
    assert (S1 : forall x, In x (active s1) -> In x (active s)).
    { intros x I. apply X1 in I. destruct I as (k & E & F). apply in_active. exists k.
      split; [|exact E]. rewrite <- L1. apply nth_error_Some. congruence. }
    destruct (bs s1 =? 0) eqn:B1.
    { injection H as H1 H2 H3. subst. apply Nat.eqb_eq in B1. split; [lia|]. split; [constructor|].
      split; [contradiction|]. split; [contradiction|]. intros x I. unfold active in I. rewrite B1 in I. contradiction. }
    destruct (length f2 =? bs s1) eqn:L2; [|discriminate]. apply Nat.eqb_eq in L2.
    destruct (phase nx f2 s1) as [s2|] eqn:P2; [|discriminate]. cbn [bind] in H.
    destruct (active_phase nx n s1 f2 s2 A1 L2 P2) as [A2 X2].
    destruct (inner_run nx max (S it) h s2) as [[[s3 d3] r3]|] eqn:R; [|discriminate].
    cbn [bind fst snd] in H. injection H as H1 H2 H3. subst s3 d3 r.
    destruct (IH (S it) s2 s' done r3 A2 ltac:(lia) R) as (D & N & I1 & I2 & I3).
    assert (S2 : forall x, In x (active s2) <-> In (x, it) (reported f2 (sys s1) it)).
    { intros x. rewrite X2, reported_in. split; [intros E; split; [reflexivity|exact E]|intros [_ E]; exact E]. }
    assert (S21 : forall x, In x (active s2) -> In x (active s1)).
    { intros x I. apply X2 in I. destruct I as (k & E & F). apply in_active. exists k.
      split; [|exact E]. rewrite <- L2. apply nth_error_Some. congruence. }
    assert (PS1 : is_perm (sys s1) n) by (destruct A1; assumption).
    assert (LT : forall x, In x (active s) -> x < n).
    { intros x I. apply in_active in I. destruct I as (k & _ & E). apply nth_error_In in E.
      assert (PS : is_perm (sys s) n) by (destruct A; assumption).
      apply (Permutation_in _ PS) in E. apply in_seq in E. lia. }
    split; [lia|].
    split. { apply nodup_app; [apply reported_nodup; eapply perm_nodup; exact PS1|exact N|].
             intros [x i] Ha Hb. apply reported_in in Ha. destruct Ha as [-> _].
             apply I1 in Hb. lia. }
    split. { intros x i I. apply in_app_iff in I. destruct I as [I|I].
             - assert (E : i = it) by (apply reported_in in I; tauto). subst i.
               apply S2 in I. split; [auto|]. split; [apply LT; auto|]. lia.
             - destruct (I1 x i I) as (Q1 & Q2 & Q3). split; [auto|]. split; [exact Q2|lia]. }
    split. { intros x i I Hi. apply in_app_iff in I. apply in_app_iff. destruct I as [I|I].
             - apply reported_in in I. lia.
             - destruct (Nat.eq_dec i it) as [->|NE].
               + left. apply S2. apply (I1 x (S it) I).
               + right. apply I2; [exact I|lia]. }
    intros x I. destruct (I3 x I) as [Q1 Q2]. split; [auto|].
    intros i Hi. apply in_app_iff. destruct (Nat.eq_dec i it) as [->|NE].
    + left. apply S2. exact Q1.
    + right. apply Q2. lia.
Qed.

(** *** C61_inner_each: a system is reported once for each inner iteration after which it goes on,
    without gaps, from the first one, with the number of the iteration; those still being solved at
    the end were reported for every iteration.  For all outcomes of the tests. *)
Theorem C61_inner_each : forall nx max h n arrays s done r,
  inner_run nx max 0 h (inner_start n arrays) = Some (s, done, r) ->
  done <= max /\ NoDup r /\
  (forall x i, In (x, i) r -> x < n /\ i < done) /\
  (forall x i, In (x, S i) r -> In (x, i) r) /\
  (forall x i, In x (active s) -> i < done -> In (x, i) r).
Proof.
  intros nx max h n arrays s done r H.
  destruct (run_facts nx n max h 0 _ s done r (start_aligned n arrays) ltac:(lia) H) as (D & N & I1 & I2 & I3).
  split; [lia|]. split; [exact N|].
  split; [intros x i I; destruct (I1 x i I) as (_ & Q & R); split; [exact Q|lia]|].
  split; [intros x i I; apply I2; [exact I|lia]|].
  intros x i I L. apply (I3 x I). lia.
Qed.

Lemma run_exact : forall nx n max h it s s' done r, aligned n s ->
  inner_run nx max it h s = Some (s', done, r) ->
  forall j x, it + j < done -> exists sj dj rj,
    inner_run nx max it (firstn (S j) h) s = Some (sj, dj, rj) /\ dj = S (it + j) /\
    (In (x, it + j) r <-> In x (active sj)).
Proof.
  intros nx n max h. induction h as [|[f1 f2] h IH]; intros it s s' done r A H j x Hj; cbn [inner_run] in H.
  - injection H as H1 H2 H3. lia.
  - cbn [firstn inner_run].
    destruct ((it <? max) && (0 <? bs s)) eqn:G; [|injection H as H1 H2 H3; lia].
    destruct (length f1 =? bs s) eqn:L1; [|discriminate]. pose proof L1 as L1'. apply Nat.eqb_eq in L1'.
    destruct (phase nx f1 s) as [s1|] eqn:P1; [|discriminate]. cbn [bind] in *.
    destruct (active_phase nx n s f1 s1 A L1' P1) as [A1 _].
    destruct (bs s1 =? 0); [injection H as H1 H2 H3; lia|].
    destruct (length f2 =? bs s1) eqn:L2; [|discriminate]. pose proof L2 as L2'. apply Nat.eqb_eq in L2'.
    destruct (phase nx f2 s1) as [s2|] eqn:P2; [|discriminate]. cbn [bind] in *.
    destruct (active_phase nx n s1 f2 s2 A1 L2' P2) as [A2 X2].
    destruct (inner_run nx max (S it) h s2) as [[[s3 d3] r3]|] eqn:R; [|discriminate].
    cbn [bind fst snd] in H. injection H as H1 H2 H3. subst s3 d3 r.
    destruct (run_facts nx n max h (S it) s2 s' done r3) as (_ & _ & I1 & _); [exact A2| |exact R|].
    { apply andb_true_iff in G. destruct G as [G _]. apply Nat.ltb_lt in G. lia. }
    destruct j as [|j].
    + cbn [firstn inner_run bind fst snd]. exists s2, (S it), (reported f2 (sys s1) it ++ []).
      split; [reflexivity|]. split; [lia|]. rewrite Nat.add_0_r, in_app_iff, X2, reported_in. split.
      * intros [[_ E]|E]; [exact E|]. apply I1 in E. lia.
      * intros E. left. split; [reflexivity|exact E].
    + destruct (IH (S it) s2 s' done r3 A2 R j x ltac:(lia)) as (sj & dj & rj & E1 & E2 & E3).
      rewrite E1. cbn [bind fst snd]. eexists. eexists. eexists. split; [reflexivity|]. split; [lia|].
      replace (it + S j) with (S it + j) by lia. rewrite in_app_iff, <- E3. split; [|tauto].
      intros [E|E]; [|exact E]. apply reported_in in E. lia.
Qed.

(** *** C61_inner_exact: the systems reported for an iteration are exactly those being solved after
    it; one that ends in an iteration is not reported for it. *)
Theorem C61_inner_exact : forall nx max h n arrays s done r j x,
  inner_run nx max 0 h (inner_start n arrays) = Some (s, done, r) -> j < done ->
  exists sj rj, inner_run nx max 0 (firstn (S j) h) (inner_start n arrays) = Some (sj, S j, rj) /\
    (In (x, j) r <-> In x (active sj)).
Proof.
  intros nx max h n arrays s done r j x H Hj.
  destruct (run_exact nx n max h 0 _ s done r (start_aligned n arrays) H j x Hj) as (sj & dj & rj & E1 & E2 & E3).
  subst dj. exists sj, rj. split; [exact E1|exact E3].
Qed.

(** Three systems: the first ends in the first iteration, the third in the second one. *)
Example C61_inner_case : exists s,
  inner_run 1 10 0 [([false; false; false], [true; false; false]); ([false; false], [true; false]);
                    ([false], [false])] (inner_start 3 7) = Some (s, 3, [(1, 0); (2, 0); (1, 1); (1, 2)]).
Proof. eexists. vm_compute. reflexivity. Qed.
