(** The block orthonormalization as its callers see it: what the input is in terms of
    the output, the inner products and their factor it keeps, and when the new
    vectors are orthonormal; for one call and for any history of calls. *)
From Coq Require Import List Arith Bool Lia Field Setoid Morphisms.
From Verif Require Import Base ProjModel SpecProj MatAlg SvqbModel SpecSvqb PropsSvqb.
Import ListNotations.

Set Implicit Arguments.

Section S.
Context {K : Type} (o : scal K) (L : laws o) (la : lapack K) (LA : lapack_ok o la).
Context (rootN : K -> K) (rootD : nat -> K -> K) (big : K -> bool) (huge : K) (near1 : K -> bool).
Context (posd : K -> bool) (close : K -> K -> K -> bool).
Context (n : nat) (B : option (nat -> nat -> K)) (nl : nat) (locked : nat -> nat -> K).
Context (RO : forall m, roots_ok o m rootN rootD).
Context (HB : match B with Some b => hermitian o n b | None => True end).
Local Notation mx := (nat -> nat -> K).
Local Notation call := (bortho_block o la rootN rootD big huge near1 posd close n B nl locked).
Add Field Kf54b : (l_field o L).

Lemma call_inv b1 b2 V G F (st : @bst K) F1 b2o t : call b1 b2 V G F = Some (st, F1, b2o, t) ->
  svqb_loop o la rootN rootD big huge near1 posd close n B nl locked b1 b2 F 5 0 5 (start o V G) = Some (st, t) /\
  b2o = rank_estimation posd close (bG st) (nl + b1) (nl + b2) - nl /\
  update_cholesky o la (bG st) F (nl + b1) (nl + b2o) = Some F1.
Proof.
  unfold bortho_block. destruct (svqb_loop _ _ _ _ _ _ _ _ _ _ _ _ _ _ _ _ _ _ _ _) as [[s t']|] eqn:E; cbn [bind]; [|discriminate].
  destruct (update_cholesky _ _ _ _ _ _) as [f|] eqn:E2; cbn [bind]; [|discriminate].
  intros H. injection H as <- <- <- <-. split; [reflexivity|]. split; [reflexivity|exact E2].
Qed.

Lemma start_recovers b1 b2 V G : recovers o n nl locked b1 b2 V V (start o V G).
Proof.
  intros i j Hi Hj. unfold start. cbn [br].
  rewrite (mul_1_r o L (b2 - b1) n) by assumption. unfold block.
  assert (Z : mul o (nl + b1) (both nl locked V) (stack nl (Bst V G (fun _ _ => k0 o) (fun _ _ => k0 o) (one o) (fun _ _ => k0 o) (fun _ => k1 o) (one o) true (fun _ _ => k0 o) (fun _ => k1 o))) i j = k0 o).
  { unfold mul. apply (sum_zero o L). intros l Hl. unfold stack. cbn [bRL bRT]. destruct (l <? nl); ring. }
  rewrite Z. ring.
Qed.

(** The input vectors are the previous vectors times the returned coefficients plus
    the returned vectors times r, when the loop is ended by its test; no other vector
    is changed. *)
Theorem C54_recovered : forall b1 b2 V G F st F1 b2o t, b1 < b2 ->
  call b1 b2 V G F = Some (st, F1, b2o, t) ->
  (forall i j, j < b1 \/ b2 <= j -> bV st i j = V i j) /\
  (t = true -> forall i j, i < n -> j < b2 - b1 ->
    V i (b1 + j) =
    kadd o (kadd o (sum o nl (fun l => kmul o (locked i l) (bRL st l j)))
                   (sum o b1 (fun l => kmul o (V i l) (bRT st l j))))
           (sum o (b2 - b1) (fun l => kmul o (bV st i (b1 + l)) (br st l j)))).
Proof.
  intros b1 b2 V G F st F1 b2o t Hb E. apply call_inv in E. destruct E as (E & _ & _).
  destruct (loop_recovers L LA big huge near1 posd close B Hb (RO _) F (V0 := V) 5 0 5 E) as [H1 H2].
  - intros i j _. reflexivity.
  - intros i j _. reflexivity.
  - apply start_recovers.
  - split; [exact H1|]. intros Ht i j Hi Hj. rewrite (H2 Ht i j Hi Hj). unfold mul at 1. rewrite (sum_split o L).
    f_equal. f_equal; apply (sum_ext o); intros l Hl; unfold both, stack.
    + destruct (l <? nl) eqn:El; [reflexivity|apply Nat.ltb_ge in El; lia].
    + destruct (nl + l <? nl) eqn:El; [apply Nat.ltb_lt in El; lia|].
      replace (nl + l - nl) with l by lia. reflexivity.
Qed.

Lemma all_close_ok V i : forall j, all_close close V i j = true -> forall l, l < j -> close (V l i) (V i i) (V l l) = true.
Proof.
  induction j as [|j IH]; intros H l Hl; [lia|]. cbn in H. apply andb_prop in H. destruct H as [H1 H2].
  destruct (Nat.eq_dec l j) as [->|]; [exact H2|apply IH; [exact H1|lia]].
Qed.
Lemma all_close_no V i : forall j, all_close close V i j = false -> exists l, l < j /\ close (V l i) (V i i) (V l l) = false.
Proof.
  induction j as [|j IH]; intros H; [discriminate|]. cbn in H. apply andb_false_iff in H. destruct H as [H|H].
  - destruct (IH H) as (l & Hl & E). exists l. split; [lia|exact E].
  - exists j. split; [lia|exact H].
Qed.
Lemma rank_spec V : forall f i, let r := rank_from posd close V f i in
  i <= r <= i + f /\
  (forall c, i <= c < r -> posd (V c c) = true /\ forall l, l < c -> close (V l c) (V c c) (V l l) = true) /\
  (r < i + f -> posd (V r r) = false \/ exists l, l < r /\ close (V l r) (V r r) (V l l) = false).
Proof.
  induction f as [|f IH]; intros i; cbn [rank_from]; cbv zeta.
  - split; [lia|]. split; [intros; lia|lia].
  - destruct (posd (V i i)) eqn:E1; cbn [andb].
    + destruct (all_close close V i i) eqn:E2.
      * destruct (IH (S i)) as (H1 & H2 & H3). split; [lia|]. split.
        -- intros c Hc. destruct (Nat.eq_dec c i) as [->|]; [|apply H2; lia].
           split; [exact E1|]. apply all_close_ok. exact E2.
        -- intros H. apply H3. lia.
      * split; [lia|]. split; [intros; lia|]. intros _. right. apply all_close_no. exact E2.
    + split; [lia|]. split; [intros; lia|]. intros _. left. exact E1.
Qed.

(** The number of vectors kept: each kept one passes the tests of its norm and of its
    angles with all before it, and the first one not kept fails one. *)
Theorem C54_rank : forall b1 b2 V G F st F1 b2o t, b1 < b2 ->
  call b1 b2 V G F = Some (st, F1, b2o, t) ->
  b1 <= b2o <= b2 /\
  (forall c, nl + b1 <= c < nl + b2o -> posd (bG st c c) = true /\
     forall l, l < c -> close (bG st l c) (bG st c c) (bG st l l) = true) /\
  (b2o < b2 -> posd (bG st (nl + b2o) (nl + b2o)) = false \/
     exists l, l < nl + b2o /\ close (bG st l (nl + b2o)) (bG st (nl + b2o) (nl + b2o)) (bG st l l) = false).
Proof.
  intros b1 b2 V G F st F1 b2o t Hb E. apply call_inv in E. destruct E as (_ & Eb & _).
  unfold rank_estimation in Eb. destruct (rank_spec (bG st) (nl + b2 - (nl + b1)) (nl + b1)) as (H1 & H2 & H3).
  cbv zeta in *. set (r := rank_from posd close (bG st) (nl + b2 - (nl + b1)) (nl + b1)) in *.
  replace (nl + b2o) with r by lia. split; [lia|]. split; [exact H2|]. intros H. apply H3. lia.
Qed.

Lemma inner_ip X Y i j : inner o n B X Y i j = ip o n B X Y i j.
Proof. unfold inner, ip, mul, Bmul, adj. destruct B; reflexivity. Qed.
Lemma joined_out b1 b2 V V' i j : (forall i j, j < b1 \/ b2 <= j -> V' i j = V i j) -> j < nl + b1 ->
  joined nl locked V' i j = joined nl locked V i j.
Proof.
  intros H Hj. unfold joined. destruct (j <? nl) eqn:E; [reflexivity|]. apply Nat.ltb_ge in E. apply H. left; lia.
Qed.
Lemma inner_ext X X' Y Y' i i' j j' : (forall l, l < n -> X l i = X' l i') -> (forall l, l < n -> Y l j = Y' l j') ->
  inner o n B X Y i j = inner o n B X' Y' i' j'.
Proof.
  intros H1 H2. unfold inner. apply (sum_ext o). intros l Hl. rewrite H1 by exact Hl. f_equal.
  destruct B; [|apply H2; exact Hl]. apply (sum_ext o). intros h Hh. rewrite H2 by exact Hh. reflexivity.
Qed.
Lemma ended_call b1 b2 V G F (st : @bst K) F1 b2o t : no_overflow big -> b1 < b2 ->
  call b1 b2 V G F = Some (st, F1, b2o, t) ->
  ended o la rootN rootD big huge near1 posd close n B nl locked b1 b2 F V G st t.
Proof.
  intros NO Hb E. apply call_inv in E. destruct E as (E & _ & _).
  eapply loop_ended with (fuel := 5) (its := 0) (plus1 := 5); [exact Hb|exact NO|lia|lia|exact E| | | |].
  - intros i j _. reflexivity.
  - intros H. contradiction.
  - intros i j _. reflexivity.
  - intros i j _. reflexivity.
Qed.

(** The array of inner products and its Cholesky factor follow the vectors, however
    the loop ends; when its test ends it no vector is
    dropped and each norm passes the test. *)
Theorem C54_inner_products : forall b1 b2 V G F st F1 b2o t, no_overflow big -> b1 < b2 ->
  tracks o n B nl locked V G F (nl + b1) ->
  call b1 b2 V G F = Some (st, F1, b2o, t) ->
  tracks o n B nl locked (bV st) (bG st) F1 (nl + b2o) /\ (t = true -> b2o = b2 /\
    forall j, b1 <= j < b2 -> near1 (bG st (nl + j) (nl + j)) = true).
Proof.
  intros b1 b2 V G F st F1 b2o t NO Hb (T1 & T2 & T3) E.
  destruct (@ended_call b1 b2 V G F st F1 b2o t NO Hb E) as (G1 & G2 & G3 & _).
  destruct (@C54_recovered b1 b2 V G F st F1 b2o t Hb E) as [HK _]. destruct (@C54_rank b1 b2 V G F st F1 b2o t Hb E) as [HR _].
  apply call_inv in E. destruct E as (_ & Eb & EF).
  assert (HG : forall i j, i <= j -> j < nl + b2o -> bG st i j = inner o n B (joined nl locked (bV st)) (joined nl locked (bV st)) i j).
  { intros i j Hij Hj. destruct (Nat.lt_ge_cases j (nl + b1)) as [Hl|Hl].
    - rewrite G2 by exact Hl. rewrite T1 by assumption. apply inner_ext; intros l _; symmetry;
        apply (@joined_out b1 b2 V (bV st) _ _ HK); lia.
    - replace j with (nl + b1 + (j - (nl + b1))) at 1 by lia. rewrite G1 by lia. rewrite <- inner_ip.
      apply inner_ext; intros l _; [reflexivity|]. unfold block, joined.
      destruct (j <? nl) eqn:Ej; [apply Nat.ltb_lt in Ej; lia|]. f_equal. lia. }
  split.
  - assert (HM : forall i j, i < nl + b2o -> j < nl + b2o ->
      kconj o (inner o n B (joined nl locked (bV st)) (joined nl locked (bV st)) i j) =
      inner o n B (joined nl locked (bV st)) (joined nl locked (bV st)) j i).
    { intros i j Hi Hj. rewrite !inner_ip.
      apply (@ip_adj _ o L n B HB (nl + b2o) (nl + b2o) (joined nl locked (bV st)) (joined nl locked (bV st)) j i Hj Hi). }
    destruct (cholesky_updated L LA Hb (M := inner o n B (joined nl locked (bV st)) (joined nl locked (bV st)))
      (bG st) (F := F) (F1 := F1) (n0 := nl + b1) (n1 := nl + b2o)) as (C1 & C2 & _).
    + lia.
    + exact HM.
    + exact HG.
    + exact T2.
    + intros i j Hi Hj. unfold mul, adj. rewrite T3 by assumption. apply inner_ext; intros l _; symmetry;
        apply (@joined_out b1 b2 V (bV st) _ _ HK); assumption.
    + exact EF.
    + split; [exact HG|]. split; [exact C1|]. exact C2.
  - intros Ht. destruct (G3 Ht) as [G5 G6]. split; [rewrite Eb, G5; lia|exact G6].
Qed.

(** When the test ends the loop and no eigenvalue was replaced by the threshold in
    the last factorization, the new vectors have norm one and are orthogonal to each
    other, to the previous vectors and to the locked ones. *)
Theorem C54_orthonormal : forall b1 b2 V G F st F1 b2o, no_overflow big -> b1 < b2 ->
  tracks o n B nl locked V G F (nl + b1) ->
  call b1 b2 V G F = Some (st, F1, b2o, true) ->
  (bYo st = true -> forall i, i < b2 - b1 -> kmul o (bD st i) (bD st i) = bE st i) ->
  forall i j, i < nl + b2 -> nl + b1 <= j < nl + b2 ->
    inner o n B (joined nl locked (bV st)) (joined nl locked (bV st)) i j = if i =? j then k1 o else k0 o.
Proof.
  intros b1 b2 V G F st F1 b2o NO Hb (T1 & T2 & T3) E HD i j Hi Hj.
  destruct (@ended_call b1 b2 V G F st F1 b2o true NO Hb E) as (_ & _ & _ & G4). destruct (@C54_recovered b1 b2 V G F st F1 b2o true Hb E) as [HK _].
  destruct (G4 eq_refl) as (sp & K1 & K2 & sf & Ef & EV & EYo & ED & EE).
  rewrite EYo, ED, EE in HD.
  destruct (step_orthonormal L LA huge Hb (RO _) HB (F := F) (V0 := V) sp NO Ef K1 K2 T2) as [O1 O2].
  - intros a b Ha Hb'. unfold mul, adj. rewrite T3 by assumption. apply inner_ip.
  - exact HD.
  - rewrite <- EV in O1, O2.
    assert (Hcol : forall l, joined nl locked (bV st) l j = block b1 (bV st) l (j - (nl + b1))).
    { intros l. unfold joined, block. destruct (j <? nl) eqn:Ej; [apply Nat.ltb_lt in Ej; lia|]. f_equal. lia. }
    destruct (Nat.lt_ge_cases i (nl + b1)) as [Hl|Hl].
    + destruct (i =? j) eqn:Ei; [apply Nat.eqb_eq in Ei; lia|].
      rewrite <- (O1 i (j - (nl + b1))) by lia.
      rewrite <- inner_ip. change (both nl locked V) with (joined nl locked V). unfold inner.
      apply (sum_ext o). intros l Hln. rewrite (@joined_out b1 b2 V (bV st) _ _ HK) by exact Hl. f_equal.
      destruct B; [|apply Hcol]. apply (sum_ext o). intros h Hh. rewrite Hcol. reflexivity.
    + assert (Hrow : forall l, joined nl locked (bV st) l i = block b1 (bV st) l (i - (nl + b1))).
      { intros l. unfold joined, block. destruct (i <? nl) eqn:Ej; [apply Nat.ltb_lt in Ej; lia|]. f_equal. lia. }
      transitivity (one o (i - (nl + b1)) (j - (nl + b1))).
      * rewrite <- (O2 (i - (nl + b1)) (j - (nl + b1))) by lia. rewrite <- inner_ip. unfold inner.
        apply (sum_ext o). intros l Hln. rewrite Hrow. f_equal.
        destruct B; [|apply Hcol]. apply (sum_ext o). intros h Hh. rewrite Hcol. reflexivity.
      * unfold one. destruct (i =? j) eqn:Ei.
        -- apply Nat.eqb_eq in Ei. subst. rewrite Nat.eqb_refl. reflexivity.
        -- apply Nat.eqb_neq in Ei. destruct (_ =? _) eqn:E'; [apply Nat.eqb_eq in E'; lia|reflexivity].
Qed.

(** If moreover the previous vectors were orthonormal, all are. *)
Theorem C54_basis_orthonormal : forall b1 b2 V G F st F1 b2o, no_overflow big -> b1 < b2 ->
  tracks o n B nl locked V G F (nl + b1) ->
  orthonormal o n B (joined nl locked V) (nl + b1) ->
  call b1 b2 V G F = Some (st, F1, b2o, true) ->
  (bYo st = true -> forall i, i < b2 - b1 -> kmul o (bD st i) (bD st i) = bE st i) ->
  orthonormal o n B (joined nl locked (bV st)) (nl + b2).
Proof.
  intros b1 b2 V G F st F1 b2o NO Hb T HO E HD i j Hi Hj.
  destruct (Nat.lt_ge_cases j (nl + b1)) as [Hl|Hl].
  - destruct (Nat.lt_ge_cases i (nl + b1)) as [Hl'|Hl'].
    + rewrite <- (HO i j Hl' Hl). destruct (@C54_recovered b1 b2 V G F st F1 b2o true Hb E) as [HK _].
      apply inner_ext; intros l _; apply (@joined_out b1 b2 V (bV st) _ _ HK); assumption.
    + pose proof (@C54_orthonormal b1 b2 V G F st F1 b2o NO Hb T E HD j i) as H. rewrite Nat.eqb_sym.
      rewrite inner_ip in *. 
      rewrite <- (@ip_adj _ o L n B HB (S i) (S j) (joined nl locked (bV st)) (joined nl locked (bV st)) i j) by lia.
      unfold adj. rewrite H by lia. destruct (j =? i); [apply (conj_1 o L)|apply (l_conj_0 o L)].
  - apply (@C54_orthonormal b1 b2 V G F st F1 b2o NO Hb T E HD); lia.
Qed.

(** The histories of the basis: the caller writes new vectors after the first b1 and
    orthonormalizes them, or drops the last ones. *)
Inductive built (V0 G0 F0 : mx) (b0 : nat) : mx -> mx -> mx -> nat -> Prop :=
| built_start : built V0 G0 F0 b0 V0 G0 F0 b0
| built_call V G F b1 V1 b2 st F1 b2o t : built V0 G0 F0 b0 V G F b1 ->
    (forall i j, j < b1 -> V1 i j = V i j) -> b1 < b2 ->
    call b1 b2 V1 G F = Some (st, F1, b2o, t) ->
    built V0 G0 F0 b0 (bV st) (bG st) F1 b2o
| built_drop V G F b b' : built V0 G0 F0 b0 V G F b -> b' <= b -> built V0 G0 F0 b0 V G F b'.

Theorem C54_history : forall V0 G0 F0 b0 V G F b, no_overflow big ->
  tracks o n B nl locked V0 G0 F0 (nl + b0) -> built V0 G0 F0 b0 V G F b ->
  tracks o n B nl locked V G F (nl + b).
Proof.
  intros V0 G0 F0 b0 V G F b NO T0 H. induction H as [|V G F b1 V1 b2 st F1 b2o t H IH HV Hb E|V G F b b' H IH Hb].
  - exact T0.
  - refine (Logic.proj1 (@C54_inner_products b1 b2 V1 G F st F1 b2o t NO Hb _ E)). destruct IH as (T1 & T2 & T3).
    assert (X : forall l c, c < nl + b1 -> joined nl locked V1 l c = joined nl locked V l c).
    { intros l c Hc. unfold joined. destruct (c <? nl) eqn:Ec; [reflexivity|]. apply Nat.ltb_ge in Ec. apply HV. lia. }
    split; [|split; [exact T2|]].
    + intros i j Hij Hj. rewrite T1 by assumption. apply inner_ext; intros l _; symmetry; apply X; lia.
    + intros i j Hi Hj. rewrite T3 by assumption. apply inner_ext; intros l _; symmetry; apply X; lia.
  - destruct IH as (T1 & T2 & T3). split; [intros i j Hij Hj; apply T1; lia|].
    split; [intros i Hi; apply T2; lia|]. intros i j Hi Hj. rewrite <- T3 by lia.
    replace (nl + b) with ((nl + b') + (b - b')) by lia. rewrite (sum_split o L (nl + b') (b - b')).
    rewrite (sum_zero o L (b - b')); [ring|].
    intros l Hl. unfold up. destruct (nl + b' + l <=? i) eqn:El; [apply Nat.leb_le in El; lia|].
    rewrite (l_conj_0 o L). ring.
Qed.

(** ortho_single_iteration without an explicit Q'BQ, and Q'(BQ) the identity: what is
    left is orthogonal to Q. *)
Theorem C54_single : forall solve nQ Q BQ X, meq nQ nQ (mul o n (adj o Q) BQ) (one o) ->
  forall i j, i < nQ ->
    sum o n (fun l => kmul o (kconj o (Q l i)) (ortho_single o n solve nQ Q BQ None X l j)) = k0 o.
Proof.
  intros solve nQ Q BQ X HQ i j Hi. unfold ortho_single.
  change (mul o n (adj o Q) (msub o X (mul o nQ BQ (mul o n (adj o Q) X))) i j = k0 o).
  rewrite (mulBr o L (S i) (S j)) by lia. unfold msub.
  rewrite (mul_assoc o L).
  assert (E : meq nQ (S j) (mul o nQ (mul o n (adj o Q) BQ) (mul o n (adj o Q) X)) (mul o n (adj o Q) X)).
  { rewrite HQ. apply (mul_1_l o L). }
  rewrite (E i j Hi (Nat.lt_succ_diag_r j)). ring.
Qed.
End S.
