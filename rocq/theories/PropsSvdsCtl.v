(** C39: return code, number of triplets and origin of the results of the singular value
    solver. *)
From Coq Require Import List ZArith Bool Lia Reals Lra.
From Verif Require Import Base SvdsModel SvdsCtlModel.
Import ListNotations.
Open Scope Z_scope.

(** The documented errors, in the order of their codes (primme_svds' table of error
    codes), for the arguments as the solver completes them. *)
Definition documented (s : args) : list (Z * Prop) :=
  [ (-5, n s < 0 \/ m s < 0 \/ nLocal s < 0 \/ mLocal s < 0 \/ nLocal s > n s \/ mLocal s > m s);
    (-6, numProcs s < 1);
    (-7, has_matvec s = false);
    (-8, has_precond s = false /\ precondition s = 1);
    (-9, numProcs s > 1 /\ has_globalSum s = false);
    (-10, numSvals s > Z.min (n s) (m s));
    (-11, numSvals s < 1);
    (-13, ~ (0 <= target s <= 2));
    (-14, method s = OpNone);
    (-15, (method s = OpAug /\ methodStage2 s <> OpNone)
          \/ (method s <> OpAug /\ (methodStage2 s = OpAtA \/ methodStage2 s = OpAAt)));
    (-16, printLevel s < 0 \/ printLevel s > 5);
    (-17, has_svals s = false);
    (-18, has_svecs s = false);
    (-19, has_resNorms s = false) ].

(** The arguments after the wrapper has completed them: the parts of the matrix stored
    by a program that is not parallel, and the method when none is chosen. *)
Record completed (s0 s : args) : Prop := {
  c_seq : numProcs s0 <= 1 -> has_svals s0 = true -> has_svecs s0 = true -> has_resNorms s0 = true ->
          numProcs s = 1 /\ mLocal s = m s0 /\ nLocal s = n s0;
  c_par : numProcs s0 > 1 \/ has_svals s0 = false \/ has_svecs s0 = false \/ has_resNorms s0 = false ->
          numProcs s = numProcs s0 /\ mLocal s = mLocal s0 /\ nLocal s = nLocal s0;
  c_method : method s0 <> OpNone -> method s = method s0 /\ methodStage2 s = methodStage2 s0;
  c_default : method s0 = OpNone ->
     (n s0 <= m s0 -> method s = OpAtA) /\ (n s0 > m s0 -> method s = OpAAt) /\ methodStage2 s = OpAug;
  c_same : m s = m s0 /\ n s = n s0 /\ has_matvec s = has_matvec s0 /\ has_precond s = has_precond s0 /\
     precondition s = precondition s0 /\ has_globalSum s = has_globalSum s0 /\ numSvals s = numSvals s0 /\
     target s = target s0 /\ printLevel s = printLevel s0 /\ has_svals s = has_svals s0 /\
     has_svecs s = has_svecs s0 /\ has_resNorms s = has_resNorms s0 }.

Lemma bool_false : forall b, b = false <-> ~ b = true.
Proof. intros []; split; congruence. Qed.

Theorem C39_completed : forall s, completed s (default_method (sequential s)).
Proof.
  intros s.
  assert (S : let t := sequential s in
    (numProcs s <= 1 /\ has_svals s = true /\ has_svecs s = true /\ has_resNorms s = true /\
     numProcs t = 1 /\ mLocal t = m s /\ nLocal t = n s \/
     ((numProcs s > 1 \/ has_svals s = false \/ has_svecs s = false \/ has_resNorms s = false) /\
      numProcs t = numProcs s /\ mLocal t = mLocal s /\ nLocal t = nLocal s)) /\
    method t = method s /\ methodStage2 t = methodStage2 s /\
    m t = m s /\ n t = n s /\ has_matvec t = has_matvec s /\ has_precond t = has_precond s /\
     precondition t = precondition s /\ has_globalSum t = has_globalSum s /\ numSvals t = numSvals s /\
     target t = target s /\ printLevel t = printLevel s /\ has_svals t = has_svals s /\
     has_svecs t = has_svecs s /\ has_resNorms t = has_resNorms s).
  { unfold sequential.
    destruct ((numProcs s <=? 1) && has_svals s && has_svecs s && has_resNorms s) eqn:E; cbv zeta.
    - rewrite !andb_true_iff, Z.leb_le in E. cbn. split; [left; tauto|]. repeat split.
    - split; [right|repeat split]. apply bool_false in E. rewrite !andb_true_iff, Z.leb_le in E.
      split; [|auto]. destruct (has_svals s), (has_svecs s), (has_resNorms s); auto. left.
      destruct (Z_gt_le_dec (numProcs s) 1); auto. exfalso. apply E. auto. }
  cbv zeta in S. generalize dependent (sequential s). intros t (S1 & M1 & M2 & S2).
  destruct S2 as (T1 & T2 & T3 & T4 & T5 & T6 & T7 & T8 & T9 & T10 & T11 & T12).
  unfold default_method. destruct (method t) eqn:EM.
  - constructor; cbn.
    + intros. destruct S1 as [S1|[S1 _]]; [tauto|]. destruct S1 as [?|[?|[?|?]]]; try congruence; lia.
    + intros H. destruct S1 as [(? & ? & ? & ? & _)|[_ S1]]; [|tauto].
      destruct H as [?|[?|[?|?]]]; try congruence; lia.
    + intros H. congruence.
    + intros _. rewrite T1, T2. split; [|split; auto]; intros H; destruct (n s <=? m s) eqn:E6; auto;
        [apply Z.leb_gt in E6 | apply Z.leb_le in E6]; lia.
    + repeat split; auto.
  - constructor; try rewrite EM; [| | | |repeat split; auto].
    + intros. destruct S1 as [S1|[S1 _]]; [tauto|]. destruct S1 as [?|[?|[?|?]]]; try congruence; lia.
    + intros H. destruct S1 as [(? & ? & ? & ? & _)|[_ S1]]; [|tauto].
      destruct H as [?|[?|[?|?]]]; try congruence; lia.
    + intros H. auto.
    + intros H. congruence.
  - constructor; try rewrite EM; [| | | |repeat split; auto].
    + intros. destruct S1 as [S1|[S1 _]]; [tauto|]. destruct S1 as [?|[?|[?|?]]]; try congruence; lia.
    + intros H. destruct S1 as [(? & ? & ? & ? & _)|[_ S1]]; [|tauto].
      destruct H as [?|[?|[?|?]]]; try congruence; lia.
    + intros H. auto.
    + intros H. congruence.
  - constructor; try rewrite EM; [| | | |repeat split; auto].
    + intros. destruct S1 as [S1|[S1 _]]; [tauto|]. destruct S1 as [?|[?|[?|?]]]; try congruence; lia.
    + intros H. destruct S1 as [(? & ? & ? & ? & _)|[_ S1]]; [|tauto].
      destruct H as [?|[?|[?|?]]]; try congruence; lia.
    + intros H. auto.
    + intros H. congruence.
Qed.

(** ** The checks: the first documented error, or none. *)
Definition first_error (s : args) (c : Z) : Prop :=
  exists before P after, documented s = before ++ (c, P) :: after /\ P /\
    Forall (fun q => ~ snd q) before.

Theorem C39_checked : forall s,
  (check_input s = 0 /\ Forall (fun q => ~ snd q) (documented s)) \/
  (check_input s <> 0 /\ first_error s (check_input s)).
Proof.
  intros s.
  unfold check_input.
  destruct ((n s <? 0) || (m s <? 0) || (nLocal s <? 0) || (mLocal s <? 0) || (nLocal s >? n s) || (mLocal s >? m s)) eqn:B1.
  { right. split; [discriminate|]. eexists [], _, _. split; [reflexivity|]. split; [|constructor].
    rewrite !orb_true_iff, !Z.ltb_lt, !Z.gtb_lt in B1. lia. }
  assert (N1 : ~ (n s < 0 \/ m s < 0 \/ nLocal s < 0 \/ mLocal s < 0 \/ nLocal s > n s \/ mLocal s > m s)).
  { apply bool_false in B1. rewrite !orb_true_iff, !Z.ltb_lt, !Z.gtb_lt in B1. lia. } clear B1.
  destruct (numProcs s <? 1) eqn:B2.
  { right. split; [discriminate|]. eexists [_], _, _. split; [reflexivity|].
    split; [apply Z.ltb_lt; auto | repeat constructor; auto]. }
  apply Z.ltb_ge in B2. assert (N2 : ~ numProcs s < 1) by lia.
  destruct (has_matvec s) eqn:B3; cbn [negb].
  2:{ right. split; [discriminate|]. eexists [_;_], _, _. split; [reflexivity|].
      split; [auto | repeat constructor; auto]. }
  assert (N3 : ~ has_matvec s = false) by congruence.
  destruct (negb (has_precond s) && (precondition s =? 1)) eqn:B4.
  { right. split; [discriminate|]. eexists [_;_;_], _, _. split; [reflexivity|].
    split; [|repeat constructor; auto]. rewrite andb_true_iff, negb_true_iff, Z.eqb_eq in B4. auto. }
  assert (N4 : ~ (has_precond s = false /\ precondition s = 1)).
  { apply bool_false in B4. rewrite andb_true_iff, negb_true_iff, Z.eqb_eq in B4. auto. } clear B4.
  destruct ((numProcs s >? 1) && negb (has_globalSum s)) eqn:B5.
  { right. split; [discriminate|]. eexists [_;_;_;_], _, _. split; [reflexivity|].
    split; [|repeat constructor; auto]. rewrite andb_true_iff, negb_true_iff, Z.gtb_lt in B5. split; [lia|tauto]. }
  assert (N5 : ~ (numProcs s > 1 /\ has_globalSum s = false)).
  { apply bool_false in B5. rewrite andb_true_iff, negb_true_iff, Z.gtb_lt in B5. intros [? ?]; apply B5; split; [lia|auto]. }
  clear B5.
  destruct (numSvals s >? Z.min (n s) (m s)) eqn:B6.
  { right. split; [discriminate|]. eexists [_;_;_;_;_], _, _. split; [reflexivity|].
    split; [apply Z.gtb_lt in B6; lia | repeat constructor; auto]. }
  assert (N6 : ~ numSvals s > Z.min (n s) (m s)) by (rewrite Z.gtb_ltb in B6; apply Z.ltb_ge in B6; lia).
  destruct (numSvals s <? 1) eqn:B7.
  { right. split; [discriminate|]. eexists [_;_;_;_;_;_], _, _. split; [reflexivity|].
    split; [apply Z.ltb_lt in B7; lia | repeat constructor; auto]. }
  assert (N7 : ~ numSvals s < 1) by (apply Z.ltb_ge in B7; lia).
  destruct (negb (target s =? 1) && negb (target s =? 0) && negb (target s =? 2)) eqn:B8.
  { right. split; [discriminate|]. eexists [_;_;_;_;_;_;_], _, _. split; [reflexivity|].
    split; [|repeat constructor; auto]. rewrite !andb_true_iff, !negb_true_iff, !Z.eqb_neq in B8. lia. }
  assert (N8 : ~ ~ (0 <= target s <= 2)).
  { apply bool_false in B8. rewrite !andb_true_iff, !negb_true_iff, !Z.eqb_neq in B8. lia. } clear B8.
  destruct (negb (is_op (method s) OpAtA) && negb (is_op (method s) OpAAt) && negb (is_op (method s) OpAug)) eqn:B9.
  { right. split; [discriminate|]. eexists [_;_;_;_;_;_;_;_], _, _. split; [reflexivity|].
    split; [|repeat constructor; auto]. destruct (method s); cbn in B9; congruence. }
  assert (N9 : ~ method s = OpNone) by (intros E; rewrite E in B9; discriminate). clear B9.
  destruct ((is_op (method s) OpAug && negb (is_op (methodStage2 s) OpNone))
          || (negb (is_op (method s) OpAug) && negb (is_op (methodStage2 s) OpAug)
              && negb (is_op (methodStage2 s) OpNone))) eqn:B10.
  { right. split; [discriminate|]. eexists [_;_;_;_;_;_;_;_;_], _, _. split; [reflexivity|].
    split; [|repeat constructor; auto].
    destruct (method s), (methodStage2 s); cbn in B10; try congruence; auto;
      ((left; split; congruence) || (right; split; [congruence|auto])). }
  assert (N10 : ~ ((method s = OpAug /\ methodStage2 s <> OpNone)
          \/ (method s <> OpAug /\ (methodStage2 s = OpAtA \/ methodStage2 s = OpAAt)))).
  { destruct (method s), (methodStage2 s); cbn in B10; try congruence;
      intros [[? ?]|[? [?|?]]]; congruence. } clear B10.
  destruct ((printLevel s <? 0) || (printLevel s >? 5)) eqn:B11.
  { right. split; [discriminate|]. eexists [_;_;_;_;_;_;_;_;_;_], _, _. split; [reflexivity|].
    split; [|repeat constructor; auto]. rewrite orb_true_iff, Z.ltb_lt, Z.gtb_lt in B11. lia. }
  assert (N11 : ~ (printLevel s < 0 \/ printLevel s > 5)).
  { apply bool_false in B11. rewrite orb_true_iff, Z.ltb_lt, Z.gtb_lt in B11. lia. } clear B11.
  destruct (has_svals s) eqn:B12; cbn [negb].
  2:{ right. split; [discriminate|]. eexists [_;_;_;_;_;_;_;_;_;_;_], _, _. split; [reflexivity|].
      split; [auto | repeat constructor; auto]. }
  assert (N12 : ~ has_svals s = false) by congruence.
  destruct (has_svecs s) eqn:B13; cbn [negb].
  2:{ right. split; [discriminate|]. eexists [_;_;_;_;_;_;_;_;_;_;_;_], _, _. split; [reflexivity|].
      split; [auto | repeat constructor; auto]. }
  assert (N13 : ~ has_svecs s = false) by congruence.
  destruct (has_resNorms s) eqn:B14; cbn [negb].
  2:{ right. split; [discriminate|]. eexists [_;_;_;_;_;_;_;_;_;_;_;_;_], _, _. split; [reflexivity|].
      split; [auto | repeat constructor; auto]. }
  assert (N14 : ~ has_resNorms s = false) by congruence.
  left. split; [reflexivity|]. repeat constructor; cbn [snd]; auto.
Qed.

(** ** Rejected arguments: the code, no triplets, and no eigensolver call. *)
Theorem C39_rejected : forall V (root : V -> V) over r2 accept s noc init e1 e2,
  let s' := default_method (sequential s) in
  (has_svals s = true \/ has_svecs s = true \/ has_resNorms s = true) ->
  ~ Forall (fun q => ~ snd q) (documented s') ->
  exists c, first_error s' c /\
    wrapper root over r2 accept s noc init e1 e2 = Some (Outcome c [] []).
Proof.
  intros V root over r2 accept s noc init e1 e2 s' HA HE.
  destruct (C39_checked s') as [[E F]|[E F]]; [contradiction|].
  exists (check_input s'). split; auto. unfold wrapper. fold s'.
  pose proof (c_same _ _ (C39_completed s)) as (_ & _ & _ & _ & _ & _ & _ & _ & _ & A1 & A2 & A3).
  fold s' in A1, A2, A3. rewrite A1, A2, A3.
  replace (negb (has_svals s) && negb (has_svecs s) && negb (has_resNorms s)) with false.
  - rewrite (proj2 (Z.eqb_neq _ _) E). reflexivity.
  - destruct HA as [-> | [-> | ->]]; cbn; rewrite ?andb_false_r; reflexivity.
Qed.

(** ** Accepted arguments. *)
Definition accepted (s : args) : Prop :=
  has_svals s = true /\ has_svecs s = true /\ has_resNorms s = true /\
  Forall (fun q => ~ snd q) (documented (default_method (sequential s))).

Lemma accepted_run : forall V (root : V -> V) over r2 accept s noc init e1 e2,
  accepted s ->
  let s' := default_method (sequential s) in
  let rq := Request init noc (numSvals s) 0 in
  let l := after_stage1 root over r2 (method s') (pairs (e1 rq)) in
  wrapper root over r2 accept s noc init e1 e2 =
    (if negb (is_op (methodStage2 s') OpNone) && (code (e1 rq) =? 0)
     then o <- stage2 r2 accept s' noc l e2; Some (Outcome (ret o) (out o) (rq :: calls o))
     else Some (Outcome (if code (e1 rq) =? 0 then 0 else code (e1 rq) - 100) l [rq])).
Proof.
  intros V root over r2 accept s noc init e1 e2 (A1 & A2 & A3 & F) s' rq l. unfold wrapper.
  pose proof (c_same _ _ (C39_completed s)) as (_ & _ & _ & _ & _ & _ & Ev & _ & _ & B1 & B2 & B3).
  fold s' in F, B1, B2, B3, Ev |- *. rewrite B1, B2, B3, A1, A2, A3. cbn [negb andb].
  destruct (C39_checked s') as [[E _]|[E Fe]].
  - rewrite E. cbn [Z.eqb negb]. rewrite Ev. reflexivity.
  - exfalso. destruct Fe as (b & P & a & D & HP & _). rewrite D in F.
    apply Forall_app in F. destruct F as [_ F]. inversion F; auto.
Qed.

(** What the scan before the second stage does: the triplets carried over are the first
    ones accepted, each tested with its own column, and the counts move with them. *)
Lemma four : forall A B C D (a a' : A) (b b' : B) (c c' : C) (d d' : D),
  a = a' -> b = b' -> c = c' -> d = d' -> (a, b, c, d) = (a', b', c', d').
Proof. congruence. Qed.
Lemma carry_spec : forall V (accept : V -> V -> nat -> bool) l c e,
  exists k, (k <= length l)%nat /\
    carry accept l c e = (k, (length l - k)%nat, (c + k)%nat, e - Z.of_nat k) /\
    (forall i s r, (i < k)%nat -> nth_error l i = Some (s, r) -> accept s r (c + i)%nat = true) /\
    (forall s r, nth_error l k = Some (s, r) -> accept s r (c + k)%nat = false).
Proof.
  intros V accept. induction l as [|[s r] l IH]; intros c e.
  - exists 0%nat. cbn [carry length]. repeat split; auto.
    + apply four; lia.
    + intros i s r H; lia.
    + intros s r H; discriminate.
  - cbn [carry fst snd]. destruct (accept s r c) eqn:E.
    + destruct (IH (S c) (e - 1)) as (k & Lk & Ec & H1 & H2). exists (S k). rewrite Ec.
      split; [cbn [length]; lia|]. split; [apply four; cbn [length]; lia|]. split.
      * intros [|i] s' r' Hi Hn; [inversion Hn; subst; rewrite Nat.add_0_r; auto|].
        cbn [nth_error] in Hn. replace (c + S i)%nat with (S c + i)%nat by lia. apply H1; auto. lia.
      * intros s' r' Hn. cbn [nth_error] in Hn. replace (c + S k)%nat with (S c + k)%nat by lia. auto.
    + exists 0%nat. split; [lia|]. split; [apply four; cbn [length]; lia|]. split; [intros i ? ? H; lia|].
      intros s' r' Hn. inversion Hn; subst. rewrite Nat.add_0_r. auto.
Qed.

(** The eigensolver of each stage returns at most what it was asked for (see C16). *)
Definition fair {V} (solve : request -> answer V) : Prop :=
  forall rq, 0 <= r_evals rq -> Z.of_nat (length (pairs (solve rq))) <= r_evals rq.

(** One stage only: chosen, or forced by a failure of the first. *)
Theorem C39_one_stage : forall V (root : V -> V) over r2 accept s noc init e1 e2,
  accepted s -> let s' := default_method (sequential s) in
  let rq := Request init noc (numSvals s) 0 in
  methodStage2 s' = OpNone \/ code (e1 rq) <> 0 ->
  wrapper root over r2 accept s noc init e1 e2 =
    Some (Outcome (if code (e1 rq) =? 0 then 0 else code (e1 rq) - 100)
            (after_stage1 root over r2 (method s') (pairs (e1 rq))) [rq]).
Proof.
  intros V root over r2 accept s noc init e1 e2 A s' rq H. rewrite accepted_run by auto.
  fold s'. fold rq. destruct H as [-> | H]; [reflexivity|].
  rewrite (proj2 (Z.eqb_neq _ _) H), andb_false_r. reflexivity.
Qed.

(** Two stages: what the second is asked for and what the caller gets. *)
Theorem C39_two_stages : forall V (root : V -> V) over r2 accept s noc init e1 e2,
  accepted s -> let s' := default_method (sequential s) in
  let rq := Request init noc (numSvals s) 0 in
  let l := after_stage1 root over r2 (method s') (pairs (e1 rq)) in
  methodStage2 s' <> OpNone -> code (e1 rq) = 0 -> l <> [] ->
  exists k, (k <= length l)%nat /\
    (* the triplets kept are the first ones the test accepts, each with its column *)
    (forall i v r, (i < k)%nat -> nth_error l i = Some (v, r) -> accept v r (noc + i)%nat = true) /\
    (forall v r, nth_error l k = Some (v, r) -> accept v r (noc + k)%nat = false) /\
    (* they become constraints, the rest initial vectors; only the missing are sought *)
    let rq2 := Request (length l - k) (noc + k) (numSvals s - Z.of_nat k) k in
    (* and the results follow the kept ones *)
    wrapper root over r2 accept s noc init e1 e2 =
      Some (Outcome (if code (e2 rq2) =? 0 then 0 else code (e2 rq2) - 200)
        (map (fun p => (fst p, r2 (snd p))) (firstn k l ++ pairs (e2 rq2))) [rq; rq2]).
Proof.
  intros V root over r2 accept s noc init e1 e2 A s' rq l HM HC HL.
  assert (Ev : numSvals s' = numSvals s) by apply (c_same _ _ (C39_completed s)).
  destruct (carry_spec V accept l noc (numSvals s)) as (k & Lk & Ec & H1 & H2).
  exists k. split; auto. split; auto. split; auto. intros rq2.
  rewrite accepted_run by auto. fold s'. fold rq. fold l. rewrite HC.
  destruct (methodStage2 s') eqn:EM; [contradiction| | |]; cbn [is_op negb andb Z.eqb];
  (unfold stage2; rewrite Ev; destruct l as [|p l']; [contradiction|]; rewrite Ec;
   replace (numSvals s - (numSvals s - Z.of_nat k)) with (Z.of_nat k) by lia; rewrite Nat2Z.id; reflexivity).
Qed.

(** The number of triplets never exceeds what was asked for, and a call that succeeds
    returns them all if the eigensolvers do. *)
Definition full {V} (solve : request -> answer V) : Prop :=
  forall rq, code (solve rq) = 0 -> Z.of_nat (length (pairs (solve rq))) = r_evals rq.

Theorem C39_count : forall V (root : V -> V) over r2 accept s noc init e1 e2 o,
  accepted s -> fair e1 -> fair e2 ->
  wrapper root over r2 accept s noc init e1 e2 = Some o ->
  Z.of_nat (length (out o)) <= numSvals s /\
  (full e1 -> full e2 -> ret o = 0 -> (forall rq, -200 < code (e2 rq) <= 0) ->
   (forall rq, -100 < code (e1 rq) <= 0) -> Z.of_nat (length (out o)) = numSvals s).
Proof.
  intros V root over r2 accept s noc init e1 e2 o A F1 F2 E.
  assert (Pos : 0 < numSvals s).
  { destruct A as (_ & _ & _ & F). unfold documented in F.
    do 6 (apply Forall_inv_tail in F). apply Forall_inv in F. cbn [snd] in F.
    assert (Ev : numSvals (default_method (sequential s)) = numSvals s) by apply (c_same _ _ (C39_completed s)).
    rewrite Ev in F. lia. }
  set (s' := default_method (sequential s)) in *. set (rq := Request init noc (numSvals s) 0).
  set (l := after_stage1 root over r2 (method s') (pairs (e1 rq))).
  assert (Ll : length l = length (pairs (e1 rq))).
  { unfold l, after_stage1. destruct (method s'); rewrite ?map_length; auto. }
  pose proof (F1 rq ltac:(cbn; lia)) as G1. cbn [rq r_evals] in G1. fold rq in G1.
  destruct (is_op (methodStage2 s') OpNone) eqn:EM.
  - rewrite (C39_one_stage V root over r2 accept s noc init e1 e2 A) in E.
    2:{ left. fold s'. destruct (methodStage2 s'); cbn in EM; congruence. }
    fold s' rq l in E. injection E as <-. cbn [out ret]. split; [lia|].
    intros H1 _ HR _ HB. specialize (HB rq).
    destruct (code (e1 rq) =? 0) eqn:EC; [|lia]. apply Z.eqb_eq in EC.
    specialize (H1 rq EC). cbn [rq r_evals] in H1. fold rq in H1. lia.
  - destruct (Z.eq_dec (code (e1 rq)) 0) as [EC|EC].
    2:{ rewrite (C39_one_stage V root over r2 accept s noc init e1 e2 A) in E by auto.
        fold s' rq l in E. injection E as <-. cbn [out ret]. split; [lia|].
        intros _ _ HR _ HB. specialize (HB rq). rewrite (proj2 (Z.eqb_neq _ _) EC) in HR. lia. }
    destruct l as [|p l'] eqn:El.
    { exfalso. rewrite accepted_run in E by auto. fold s' rq in E. fold l in E. rewrite El in E.
      rewrite EM, EC in E. cbn in E. discriminate. }
    rewrite <- El in *.
    destruct (C39_two_stages V root over r2 accept s noc init e1 e2 A) as (k & Lk & _ & _ & R).
    { fold s'. destruct (methodStage2 s'); cbn in EM; congruence. }
    { exact EC. }
    { fold s' rq l. rewrite El. discriminate. }
    fold s' rq l in Lk, R. rewrite R in E. injection E as <-. cbn [out ret].
    set (rq2 := Request (length l - k) (noc + k) (numSvals s - Z.of_nat k) k) in *.
    rewrite map_length, app_length, firstn_length, Nat.min_l by auto.
    pose proof (F2 rq2 ltac:(cbn; lia)) as G2. cbn [rq2 r_evals] in G2. fold rq2 in G2. split; [lia|].
    intros _ H2 HR HB _. specialize (HB rq2).
    destruct (code (e2 rq2) =? 0) eqn:EC2; [|lia]. apply Z.eqb_eq in EC2.
    specialize (H2 rq2 EC2). cbn [rq2 r_evals] in H2. fold rq2 in H2. lia.
Qed.

(** The code tells which stage failed and with what. *)
Theorem C39_decode : forall V (root : V -> V) over r2 accept s noc init e1 e2 o,
  wrapper root over r2 accept s noc init e1 e2 = Some o ->
  (forall rq, -100 < code (e1 rq) <= 0) -> (forall rq, -100 < code (e2 rq) <= 0) ->
  match ret o with
  | 0 => True
  | Zpos _ => False
  | Zneg _ =>
      if ret o >? -100 then calls o = [] /\ out o = []
      else if ret o >? -200 then exists rq, calls o = [rq] /\ ret o = code (e1 rq) - 100
      else exists rq rq', calls o = [rq; rq'] /\ ret o = code (e2 rq') - 200 /\ code (e1 rq) = 0
  end.
Proof.
  intros V root over r2 accept s noc init e1 e2 o E B1 B2. unfold wrapper in E.
  set (s' := default_method (sequential s)) in *.
  destruct (negb (has_svals s') && negb (has_svecs s') && negb (has_resNorms s')).
  { injection E as <-. cbn. auto. }
  destruct (negb (check_input s' =? 0)) eqn:EC.
  { injection E as <-. cbn [ret calls out].
    assert (-20 < check_input s' < 0).
    { apply negb_true_iff, Z.eqb_neq in EC. destruct (C39_checked s') as [[? _]|[_ F]]; [congruence|].
      destruct F as (b & P & a & D & _). assert (In (check_input s', P) (documented s')).
      { rewrite D. apply in_or_app. right. left. auto. }
      cbn in H. repeat (destruct H as [H|H]; [inversion H; lia|]). contradiction. }
    destruct (check_input s') eqn:E0; try lia.
    replace (Z.neg p >? -100) with true; auto. symmetry. apply Z.gtb_lt. lia. }
  set (rq := Request init noc (numSvals s') 0) in *.
  destruct (negb (is_op (methodStage2 s') OpNone) && (code (e1 rq) =? 0)) eqn:EM.
  - apply andb_true_iff in EM. destruct EM as [_ EM]. apply Z.eqb_eq in EM.
    unfold stage2 in E. destruct (after_stage1 root over r2 (method s') (pairs (e1 rq))) as [|p l]; [discriminate|].
    destruct (carry accept (p :: l) noc (numSvals s')) as [[[k i] c] e]. cbn [bind] in E.
    injection E as <-. cbn [ret calls out].
    set (rq2 := Request i c e (Z.to_nat (numSvals s' - e))) in *.
    specialize (B2 rq2). destruct (code (e2 rq2) =? 0) eqn:E2; [exact I|].
    apply Z.eqb_neq in E2.
    destruct (code (e2 rq2) - 200) eqn:E3; try lia.
    replace (Z.neg p0 >? -100) with false by (symmetry; rewrite Z.gtb_ltb; apply Z.ltb_ge; lia).
    replace (Z.neg p0 >? -200) with false by (symmetry; rewrite Z.gtb_ltb; apply Z.ltb_ge; lia).
    exists rq, rq2. auto.
  - injection E as <-. cbn [ret calls out]. specialize (B1 rq).
    destruct (code (e1 rq) =? 0) eqn:E2; [exact I|]. apply Z.eqb_neq in E2.
    destruct (code (e1 rq) - 100) eqn:E3; try lia.
    replace (Z.neg p >? -100) with false by (symmetry; rewrite Z.gtb_ltb; apply Z.ltb_ge; lia).
    replace (Z.neg p >? -200) with true by (symmetry; apply Z.gtb_lt; lia).
    exists rq. auto.
Qed.

(** No value is read before it is set, if a first stage that succeeds finds all. *)
Theorem C39_defined : forall V (root : V -> V) over r2 accept s noc init e1 e2,
  full e1 -> wrapper root over r2 accept s noc init e1 e2 <> None.
Proof.
  intros V root over r2 accept s noc init e1 e2 F1. unfold wrapper.
  set (s' := default_method (sequential s)) in *.
  destruct (negb (has_svals s') && negb (has_svecs s') && negb (has_resNorms s')); [discriminate|].
  destruct (negb (check_input s' =? 0)) eqn:EC; [discriminate|].
  apply negb_false_iff, Z.eqb_eq in EC.
  set (rq := Request init noc (numSvals s') 0) in *.
  destruct (negb (is_op (methodStage2 s') OpNone) && (code (e1 rq) =? 0)) eqn:EM; [|discriminate].
  apply andb_true_iff in EM. destruct EM as [_ EM]. apply Z.eqb_eq in EM.
  specialize (F1 rq EM). cbn [rq r_evals] in F1. fold rq in F1.
  assert (0 < numSvals s').
  { destruct (C39_checked s') as [[_ F]|[F _]]; [|congruence]. unfold documented in F.
    do 6 (apply Forall_inv_tail in F). apply Forall_inv in F. cbn [snd] in F. lia. }
  assert (L : length (after_stage1 root over r2 (method s') (pairs (e1 rq))) = length (pairs (e1 rq))).
  { unfold after_stage1. destruct (method s'); rewrite ?map_length; auto. }
  unfold stage2. destruct (after_stage1 root over r2 (method s') (pairs (e1 rq))) as [|p l].
  - cbn [length] in L. lia.
  - destruct (carry accept (p :: l) noc (numSvals s')) as [[[? ?] ?] ?]. cbn [bind]. discriminate.
Qed.

(** ** One stage: what becomes of each pair of the eigensolver. *)
Theorem C39_values : forall V (root : V -> V) over r2 accept s noc init e1 e2 o i ev rn,
  accepted s -> let s' := default_method (sequential s) in
  let rq := Request init noc (numSvals s) 0 in
  methodStage2 s' = OpNone \/ code (e1 rq) <> 0 ->
  wrapper root over r2 accept s noc init e1 e2 = Some o ->
  nth_error (pairs (e1 rq)) i = Some (ev, rn) ->
  length (out o) = length (pairs (e1 rq)) /\
  (method s' = OpAtA \/ method s' = OpAAt ->
     nth_error (out o) i = Some (root ev, over rn (root ev))) /\
  (method s' = OpAug -> nth_error (out o) i = Some (ev, r2 rn)).
Proof.
  intros V root over r2 accept s noc init e1 e2 o i ev rn A s' rq H E N.
  pose proof (C39_one_stage V root over r2 accept s noc init e1 e2 A H) as R. fold s' rq in R.
  rewrite R in E. injection E as <-. cbn [out]. unfold after_stage1.
  split; [destruct (method s'); rewrite ?map_length; auto|]. split.
  - intros [-> | ->]; rewrite nth_error_map, N; reflexivity.
  - intros ->. rewrite nth_error_map, N. reflexivity.
Qed.

(** That these are the residual norms of the triplets, in exact arithmetic.  The spaces
    of left and right vectors and the norms are arbitrary but for what is said of them. *)
Section Meaning.
Local Open Scope R_scope.
Variables (X Y : Type).
Variables (mulX : R -> X -> X) (subX : X -> X -> X) (mulY : R -> Y -> Y) (subY : Y -> Y -> Y).
Variables (A : X -> Y) (At : Y -> X) (normX : X -> R) (normY : Y -> R).
Hypothesis At_lin : forall c y, At (mulY c y) = mulX c (At y).
Hypothesis mulX_sub : forall c a b, mulX c (subX a b) = subX (mulX c a) (mulX c b).
Hypothesis mulX_mul : forall c d a, mulX c (mulX d a) = mulX (c * d) a.
Hypothesis mulY_mul : forall c d a, mulY c (mulY d a) = mulY (c * d) a.
Hypothesis mulY_1 : forall a, mulY 1 a = a.
Hypothesis normX_mul : forall c a, normX (mulX c a) = Rabs c * normX a.
Hypothesis normY_0 : forall a, normY (subY a a) = 0.

(** sqrt(|A v - s u|^2 + |A' u - s v|^2), the residual norm the documentation defines. *)
Definition triplet_norm (u : Y) (s : R) (v : X) : R :=
  sqrt (normY (subY (A v) (mulY s u)) * normY (subY (A v) (mulY s u))
        + normX (subX (At u) (mulX s v)) * normX (subX (At u) (mulX s v))).

(** A'A: an eigenvalue and vector with residual norm [rn] give a triplet with residual
    norm [rn / sqrt ev]. *)
Theorem C39_norm_meaning : forall v ev, 0 < ev -> 0 <= normX (subX (At (A v)) (mulX ev v)) ->
  triplet_norm (mulY (/ sqrt ev) (A v)) (sqrt ev) v
  = normX (subX (At (A v)) (mulX ev v)) / sqrt ev.
Proof.
  intros v ev H HN. unfold triplet_norm.
  assert (S : 0 < sqrt ev) by (apply sqrt_lt_R0; auto).
  rewrite mulY_mul, Rinv_r, mulY_1, normY_0 by lra. rewrite At_lin.
  replace (mulX (sqrt ev) v) with (mulX (/ sqrt ev) (mulX ev v)).
  2:{ rewrite mulX_mul. f_equal. rewrite <- (sqrt_sqrt ev) at 2 by lra. field. lra. }
  rewrite <- mulX_sub, normX_mul, Rmult_0_l, Rplus_0_l.
  rewrite Rabs_pos_eq by (left; apply Rinv_0_lt_compat; auto).
  rewrite sqrt_square.
  - unfold Rdiv. ring.
  - apply Rmult_le_pos; auto. left. apply Rinv_0_lt_compat. auto.
Qed.
End Meaning.

Example C39_norm_meaning_ex :
  triplet_norm R R Rmult Rminus Rmult Rminus (fun x => 2 * x)%R (fun x => 2 * x)%R Rabs Rabs
    (/ sqrt 3 * (2 * 1))%R (sqrt 3) 1%R = (Rabs (2 * (2 * 1) - 3 * 1) / sqrt 3)%R.
Proof.
  apply (C39_norm_meaning R R Rmult Rminus Rmult Rminus (fun x => 2 * x)%R (fun x => 2 * x)%R Rabs Rabs);
    try (intros; ring); try lra.
  - intros c a. apply Rabs_mult.
  - intros a. rewrite Rminus_diag_eq by auto. apply Rabs_R0.
  - apply Rabs_pos.
Qed.

(** ** Examples. *)
Definition sq : args := Args 1 10 8 (-1) (-1) true false 0 false 2 1 OpNone OpNone 1 true true true.
Definition two (f : request -> list (nat * nat)) (c : request -> Z) : request -> answer nat :=
  fun rq => Answer (c rq) (f rq).

(** Two wanted, both found by the first stage, the first accepted, one more found by the
    second stage. *)
Example C39_ex :
  accepted sq /\
  wrapper (fun x => x) (fun x _ => x) (fun x => x) (fun _ r _ => Nat.ltb r 5) sq 1 0
    (two (fun _ => [(3, 4); (7, 9)]%nat) (fun _ => 0)) (two (fun _ => [(6, 2)]%nat) (fun _ => 0))
  = Some (Outcome 0 [(3, 4); (6, 2)]%nat [Request 0 1 2 0; Request 1 2 1 1]).
Proof.
  split; [|reflexivity].
  unfold accepted. repeat split. unfold documented. cbn.
  repeat constructor; cbn; try discriminate; try lia; intuition; try discriminate; try lia.
Qed.
Example C39_ex_rejected :
  wrapper (fun x => x) (fun x _ => x) (fun x => x) (fun _ r _ => Nat.ltb r 5)
    (Args 1 10 8 (-1) (-1) true false 0 false 9 1 OpNone OpNone 1 true true true) 0 0
    (two (fun _ => []) (fun _ => 0)) (two (fun _ => []) (fun _ => 0))
  = Some (Outcome (-10) [] []).
Proof. reflexivity. Qed.

(** ** Residual norms of the triplets carried over. *)

(** With real numbers: the first stage solves with A'A, where a residual norm [r] of the
    eigenproblem at singular value [s] is the residual norm [r/s] of the triplet (or the
    norm of A, if less); the second reports [sqrt 2] times the eigensolver's.  What is wanted: *)
Definition faithful (aNorm : R) (e1 e2 : request -> answer R) (o : outcome R) : Prop :=
  forall i v r, nth_error (out o) i = Some (v, r) ->
    (* it was carried over from the first stage with its norm, *)
    (exists rq ev rn, nth_error (pairs (e1 rq)) i = Some (ev, rn) /\ v = sqrt ev /\ r = Rmin (rn / sqrt ev) aNorm) \/
    (* or found by the second. *)
    (exists rq j rn, nth_error (pairs (e2 rq)) j = Some (v, rn) /\ r = (sqrt 2 * rn)%R).

Theorem C39_resNorms_refuted :
  exists (aNorm : R) (accept : R -> R -> nat -> bool) e1 e2 s noc init o,
    accepted s /\ full e1 /\ full e2 /\
    wrapper sqrt (fun r v => Rmin (r / v) aNorm) (fun r => (sqrt 2 * r)%R) accept s noc init e1 e2 = Some o /\
    ret o = 0 /\ ~ faithful aNorm e1 e2 o.
Proof.
  set (s := Args 1 10 8 (-1) (-1) true false 0 false 1 1 OpAtA OpAug 1 true true true).
  set (e1 := fun rq : request => Answer (V:=R) 0 (repeat (1%R, 1%R) (Z.to_nat (r_evals rq)))).
  set (e2 := fun rq : request => Answer (V:=R) (if r_evals rq <? 1 then 0 else -1) []).
  exists 2%R, (fun _ _ _ => true), (fun rq => if r_evals rq <? 0 then Answer (V:=R) (-1) [] else e1 rq),
    (fun rq => if r_evals rq =? 0 then Answer (V:=R) 0 [] else Answer (V:=R) (-1) []), s, 0%nat, 0%nat.
  eexists. split.
  { unfold accepted. repeat split. unfold documented. cbn.
    repeat constructor; cbn; try discriminate; try lia; intuition; try discriminate; try lia. }
  split.
  { intros rq H. destruct (r_evals rq <? 0) eqn:E; [discriminate|]. apply Z.ltb_ge in E. cbn.
    rewrite repeat_length. lia. }
  split.
  { intros rq H. destruct (r_evals rq =? 0) eqn:E; [|discriminate]. apply Z.eqb_eq in E. cbn. lia. }
  split; [reflexivity|]. split; [reflexivity|].
  intros F. specialize (F 0%nat _ _ eq_refl). cbn [fst snd] in F.
  destruct F as [(rq & ev & rn & E & V & N)|(rq & j & rn & E & _)].
  - destruct (r_evals rq <? 0) eqn:E0; [discriminate|]. cbn [e1 pairs] in E.
    assert (D : In (ev, rn) (repeat (1%R, 1%R) (Z.to_nat (r_evals rq)))) by (eapply nth_error_In; eauto).
    apply repeat_spec in D. injection D as -> ->. rewrite sqrt_1 in N.
    assert (Rmin (1 / 1) 2 = 1)%R by (unfold Rmin; destruct (Rle_dec (1/1) 2); lra).
    assert (sqrt 2 * sqrt 2 = 2)%R by (apply sqrt_sqrt; lra). rewrite H in N. rewrite Rmult_1_r in N.
    rewrite N in H0. lra.
  - destruct (r_evals rq =? 0); destruct j; discriminate.
Qed.

Print Assumptions C39_completed.
Print Assumptions C39_checked.
Print Assumptions C39_rejected.
Print Assumptions C39_one_stage.
Print Assumptions C39_two_stages.
Print Assumptions C39_count.
Print Assumptions C39_decode.
Print Assumptions C39_defined.
Print Assumptions C39_resNorms_refuted.
Print Assumptions C39_values.
Print Assumptions C39_norm_meaning.
