From Coq Require Import List Arith Lia Bool Ring_theory Ring.
From Verif Require Import Base OrthoModel SpecOrtho OrthoProofs.
Import ListNotations.

Section Lists.
Context {A : Type}.
Lemma firstn_upd_same : forall (l : list A) i x, i < length l ->
  firstn (S i) (upd l i x) = firstn i l ++ [x].
Proof.
  induction l as [|y l IH]; intros [|i] x H; cbn [length] in H; try lia; auto.
  cbn [upd]. rewrite !firstn_cons. cbn [app]. f_equal. apply IH. lia.
Qed.

Lemma firstn_upd_below : forall (l : list A) i j x, j <= i ->
  firstn j (upd l i x) = firstn j l.
Proof.
  induction l as [|y l IH]; intros [|i] [|j] x H; cbn [upd]; auto; try lia.
  rewrite !firstn_cons. f_equal. apply IH. lia.
Qed.

Lemma split_at : forall (l : list A) i x, nth_error l i = Some x ->
  l = firstn i l ++ x :: skipn (S i) l.
Proof.
  induction l as [|y l IH]; intros [|i] x H; try discriminate.
  - cbn in H. inversion H; subst. reflexivity.
  - cbn [firstn skipn app]. f_equal. apply IH. exact H.
Qed.

Lemma repeat_get : forall (x : A) n i, i < n -> nth_error (repeat x n) i = Some x.
Proof.
  induction n as [|n IH]; intros [|i] H; try lia; auto. cbn. apply IH. lia.
Qed.
End Lists.

Section Blocks.
Variable sp : space.
Hypothesis E : exact sp.
Variable hasprimme : bool.
Variable rnd : nat -> X sp.
Variable locked : list (X sp).
Notation bip := (bip sp).
Notation lincomb := (lincomb sp).

Lemma orthonormal_snoc : forall us w, orthonormal sp us ->
  (forall u, In u us -> bip u w = k0 sp) -> bip w w = k1 sp ->
  orthonormal sp (us ++ [w]).
Proof.
  intros us w H H0 H1 i j x y Hi Hj.
  destruct (Nat.lt_ge_cases i (length us)) as [Ei|Ei];
  destruct (Nat.lt_ge_cases j (length us)) as [Ej|Ej].
  - rewrite nth_error_app1 in Hi, Hj by auto. eapply H; eauto.
  - rewrite nth_error_app1 in Hi by auto. rewrite nth_error_app2 in Hj by auto.
    destruct (j - length us) as [|d] eqn:Ed; [|destruct d; discriminate].
    cbn in Hj. inversion Hj; subst y.
    replace (i =? j) with false by (symmetry; apply Nat.eqb_neq; lia).
    apply H0. eapply nth_error_In; eauto.
  - rewrite nth_error_app2 in Hi by auto. rewrite nth_error_app1 in Hj by auto.
    destruct (i - length us) as [|d] eqn:Ed; [|destruct d; discriminate].
    cbn in Hi. inversion Hi; subst x.
    replace (i =? j) with false by (symmetry; apply Nat.eqb_neq; lia).
    apply (bip_sym0 sp E). apply H0. eapply nth_error_In; eauto.
  - rewrite nth_error_app2 in Hi, Hj by auto.
    destruct (i - length us) as [|d] eqn:Ed; [|destruct d; discriminate].
    destruct (j - length us) as [|d'] eqn:Ed'; [|destruct d'; discriminate].
    cbn in Hi, Hj. inversion Hi; inversion Hj; subst.
    replace (i =? j) with true by (symmetry; apply Nat.eqb_eq; lia). auto.
Qed.

Lemma vecs_orth : forall hasR hasRL k i b1 s s',
  oout _ s = i -> orthonormal sp (locked ++ firstn i (oV _ s)) ->
  vecs sp hasprimme hasR hasRL rnd k i b1 locked s = Some s' ->
  orthonormal sp (locked ++ firstn (oout _ s') (oV _ s')).
Proof.
  intros hasR hasRL. induction k as [|k IH]; intros i b1 s s' Ho Hs H.
  - inversion H; subst. exact Hs.
  - cbn [vecs] in H. unfold get in H.
    destruct (nth_error (oV _ s) i) as [x|] eqn:Ex; [|discriminate].
    destruct (nth_error (oR _ s) (i - b1)) as [c|]; [|discriminate].
    destruct (nth_error (oRL _ s) (i - b1)) as [cL|]; [|discriminate].
    cbn [bind] in H.
    assert (Hi : i < length (oV _ s)) by (apply nth_error_Some; congruence).
    assert (Hl : length (firstn i (oV _ s)) = i) by (apply firstn_length_le; lia).
    match type of H with bind ?e _ = _ => destruct e as [[ok z]|] eqn:El end; [|discriminate].
    cbn [bind] in H. destruct ok.
    + apply IH in H; auto. cbn [oV].
      rewrite firstn_upd_same by auto. rewrite app_assoc.
      rewrite <- Hl in El at 1.
      apply loop_good in El; auto.
      * destruct El as (G1 & G2). apply orthonormal_snoc; auto.
      * intros Hf. discriminate.
    + inversion H; subst s'. cbn [oout oV]. rewrite Ho.
      rewrite firstn_upd_below by lia. exact Hs.
Qed.

(** Facts about a finished column. *)
Definition fact (Vin : list (X sp)) (V : list (X sp)) (j : nat) (r rl : list (K sp)) : Prop :=
  (forall k d, j < k -> nth_error r k = Some d -> d = k0 sp) /\
  (forall d, nth_error r j = Some d -> d <> k0 sp ->
   forall x V', nth_error Vin j = Some x -> firstn (S j) V' = firstn (S j) V ->
   x = xadd sp (lincomb V' r) (lincomb locked rl)).

Definition binv (Vin : list (X sp)) (b1 e i : nat) (s : ost sp) : Prop :=
  oout _ s = i /\ orthonormal sp (locked ++ firstn i (oV _ s)) /\
  length (oV _ s) = length Vin /\
  length (oR _ s) = e - b1 /\ length (oRL _ s) = e - b1 /\
  (forall j, i <= j -> nth_error (oV _ s) j = nth_error Vin j) /\
  (forall j r, nth_error (oR _ s) j = Some r -> length r = e) /\
  (forall j r, nth_error (oRL _ s) j = Some r -> length r = length locked) /\
  (forall j r, i - b1 <= j -> nth_error (oR _ s) j = Some r -> r = repeat (k0 sp) e) /\
  (forall j r, i - b1 <= j -> nth_error (oRL _ s) j = Some r ->
     r = repeat (k0 sp) (length locked)) /\
  (forall j r rl, b1 <= j < i -> nth_error (oR _ s) (j - b1) = Some r ->
     nth_error (oRL _ s) (j - b1) = Some rl -> fact Vin (oV _ s) j r rl).

Lemma in_repeat0 : forall n (c : K sp), In c (repeat (k0 sp) n) -> c = k0 sp.
Proof. intros n c H. apply repeat_spec in H. exact H. Qed.

Lemma start_cinv : forall prev x seed p e nl, length prev < e -> nl = length locked ->
  cinv sp prev locked x
    (Vst sp x x false 0 0 seed p true (repeat (k0 sp) e) (repeat (k0 sp) nl) (k0 sp)).
Proof.
  intros prev x seed p e nl He Hn. split; [intros Hf; discriminate|].
  split; [split; cbn [col colL]; rewrite repeat_length; auto|].
  split.
  - intros k d Hk Hd. cbn [col] in Hd. apply nth_error_In in Hd.
    apply in_repeat0 in Hd. exact Hd.
  - unfold coef. cbn [updR col colL v].
    rewrite (lincomb_zero sp E prev), (lincomb_zero sp E locked) by apply in_repeat0.
    rewrite !(ex_add0 sp E). reflexivity.
Qed.

Lemma vecs_facts : forall Vin b1 e k i s s',
  b1 <= i -> i + k = e -> e <= length Vin -> binv Vin b1 e i s ->
  vecs sp hasprimme true true rnd k i b1 locked s = Some s' ->
  forall j r rl, b1 <= j < e -> nth_error (oR _ s') (j - b1) = Some r ->
    nth_error (oRL _ s') (j - b1) = Some rl ->
    length r = e /\ length rl = length locked /\
    (forall q d, j < q -> nth_error r q = Some d -> d = k0 sp) /\
    (oout _ s' <= j -> nth_error r j = Some (k0 sp)) /\
    (j < oout _ s' -> fact Vin (oV _ s') j r rl).
Proof.
  intros Vin b1 e. induction k as [|k IH]; intros i s s' Hb Hk He Hv H.
  - inversion H; subst s'.
    destruct Hv as (V1 & V2 & V3 & V4 & V5 & V6 & V7 & V8 & V9 & V10 & V11).
    intros j r rl Hj Hr Hrl.
    assert (Hf : fact Vin (oV _ s) j r rl) by (apply V11; auto; lia).
    split; [eapply V7; eauto|]. split; [eapply V8; eauto|]. split; [apply Hf|].
    split; [lia|auto].
  - cbn [vecs] in H. unfold get in H.
    destruct Hv as (V1 & V2 & V3 & V4 & V5 & V6 & V7 & V8 & V9 & V10 & V11).
    destruct (nth_error (oV _ s) i) as [x|] eqn:Ex; [|discriminate].
    destruct (nth_error (oR _ s) (i - b1)) as [c|] eqn:Ec; [|discriminate].
    destruct (nth_error (oRL _ s) (i - b1)) as [cL|] eqn:EcL; [|discriminate].
    cbn [bind] in H.
    assert (Hi : i < length (oV _ s)) by (apply nth_error_Some; congruence).
    assert (Hl : length (firstn i (oV _ s)) = i) by (apply firstn_length_le; lia).
    assert (Ec0 : c = repeat (k0 sp) e) by (eapply V9; [|exact Ec]; lia).
    assert (EcL0 : cL = repeat (k0 sp) (length locked)) by (eapply V10; [|exact EcL]; lia).
    match type of H with bind ?e _ = _ => destruct e as [[ok z]|] eqn:El end; [|discriminate].
    cbn [bind] in H. cbn [orb] in El.
    assert (Hce : cend sp (firstn i (oV _ s)) locked x z).
    { rewrite <- Hl in El at 1. subst c cL.
      eapply (loop_coef sp E hasprimme rnd (firstn i (oV _ s)) locked x _ _ ok z); [|exact El].
      apply start_cinv; auto. rewrite Hl. lia. }
    assert (Hgood : ok = true -> orthonormal sp (locked ++ firstn (S i) (upd (oV _ s) i (v _ z)))).
    { intros ->. rewrite firstn_upd_same by auto. rewrite app_assoc.
      rewrite <- Hl in El at 1. apply loop_good in El; auto.
      - destruct El as (G1 & G2). apply orthonormal_snoc; auto.
      - intros Hf. discriminate. }
    destruct Hce as ((C1 & C2) & C3 & C4). unfold zeros_beyond in C3. rewrite Hl in C1, C3, C4.
    assert (Hlen : length (col _ z) = e).
    { assert (Hinv : forall fuel st ok z, length (col _ st) = e ->
        vec_loop sp hasprimme true true rnd fuel i (firstn i (oV _ s)) locked st = Some (ok, z) ->
        length (col _ z) = e).
      { clear. induction fuel as [|f IH]; intros st ok z Hst Hl; [discriminate|].
        cbn [vec_loop] in Hl.
        pose proof (turn_lengths sp hasprimme true true rnd i (firstn i (oV _ s)) locked st) as T.
        destruct turn; [eapply IH; [|eassumption]; lia|inversion Hl; subst; lia|
                        inversion Hl; subst; lia]. }
      eapply Hinv; [|exact El]. cbn [col]. subst c. apply repeat_length. }
    destruct ok.
    + eapply IH; [| | |  |exact H]; try lia.
      unfold binv. cbn [oout oV oR oRL]. rewrite !length_upd.
      split; [reflexivity|]. split; [auto|]. split; [auto|]. split; [auto|]. split; [auto|].
      split; [intros j Hj; rewrite nth_error_upd_neq by lia; apply V6; lia|].
      split.
      { intros j r Hr. destruct (Nat.eq_dec j (i - b1)) as [->|Hn].
        - rewrite nth_error_upd_eq in Hr by (apply nth_error_Some; congruence). congruence.
        - rewrite nth_error_upd_neq in Hr by auto. eapply V7; eauto. }
      split.
      { intros j r Hr. destruct (Nat.eq_dec j (i - b1)) as [->|Hn].
        - rewrite nth_error_upd_eq in Hr by (apply nth_error_Some; congruence). congruence.
        - rewrite nth_error_upd_neq in Hr by auto. eapply V8; eauto. }
      split.
      { intros j r Hj Hr. rewrite nth_error_upd_neq in Hr by lia. eapply V9; [|exact Hr]; lia. }
      split.
      { intros j r Hj Hr. rewrite nth_error_upd_neq in Hr by lia. eapply V10; [|exact Hr]; lia. }
      intros j r rl Hj Hr Hrl. destruct (Nat.eq_dec j i) as [->|Hn].
      * rewrite nth_error_upd_eq in Hr by (apply nth_error_Some; congruence).
        rewrite nth_error_upd_eq in Hrl by (apply nth_error_Some; congruence).
        inversion Hr; inversion Hrl; subst r rl.
        split; [intros q d Hq Hd; eapply C3; eauto|].
        intros d Hd Hne x' V' Hx' HV'.
        rewrite <- V6, Ex in Hx' by lia. inversion Hx'; subst x'.
        rewrite firstn_upd_same in HV' by auto.
        rewrite (C4 d Hd Hne (skipn (S i) V')) at 1.
        f_equal. f_equal.
        rewrite <- (firstn_skipn (S i) V') at 2. rewrite HV', <- app_assoc. reflexivity.
      * rewrite nth_error_upd_neq in Hr by lia. rewrite nth_error_upd_neq in Hrl by lia.
        destruct (V11 j r rl) as (F1 & F2); [lia|auto|auto|].
        split; [exact F1|]. intros d Hd Hne x' V' Hx' HV'.
        eapply F2; eauto. rewrite HV'. apply firstn_upd_below. lia.
    + inversion H; subst s'. cbn [oout oV oR oRL].
      intros j r rl Hj Hr Hrl. rewrite V1.
      destruct (Nat.eq_dec j i) as [->|Hn].
      * rewrite nth_error_upd_eq in Hr by (apply nth_error_Some; congruence).
        rewrite nth_error_upd_eq in Hrl by (apply nth_error_Some; congruence).
        inversion Hr; inversion Hrl; subst r rl.
        split; [auto|]. split; [auto|]. split; [exact C3|]. split; [|lia].
        intros _.
        (* the abandoned column has a zero on the diagonal *)
        rewrite <- Hl in El at 1.
        pose proof (vec_loop_inv sp hasprimme true true rnd
          (cinv sp (firstn i (oV _ s)) locked x) (fun _ => True)
          (fun z => nth_error (col _ z) i = Some (k0 sp))
          (length (firstn i (oV _ s))) (firstn i (oV _ s)) locked) as L.
        refine (L _ _ _ false z _ El).
        -- intros st Hst. pose proof (turn_coef sp E hasprimme rnd (firstn i (oV _ s)) locked x st Hst) as T.
           unfold OrthoModel.turn in T |- *.
           destruct (maxNumOrthos hasprimme <=? nOrth _ st).
           ++ destruct (maxNumRandoms <=? nrand _ (freeze sp true (length (firstn i (oV _ s))) st)).
              ** pose proof (freeze_coef sp (firstn i (oV _ s)) locked x st Hst) as F.
                 rewrite Hl in F |- *. apply F.
              ** destruct orth_pass eqn:Ep; auto. exfalso. eapply pass_no_giveup; eauto.
           ++ destruct orth_pass eqn:Ep; auto. exfalso. eapply pass_no_giveup; eauto.
        -- subst c cL. apply start_cinv; auto. rewrite Hl. lia.
      * rewrite nth_error_upd_neq in Hr by lia. rewrite nth_error_upd_neq in Hrl by lia.
        split; [eapply V7; eauto|]. split; [eapply V8; eauto|].
        destruct (Nat.lt_ge_cases j i) as [Hji|Hji].
        -- destruct (V11 j r rl) as (F1 & F2); [lia|auto|auto|].
           split; [exact F1|]. split; [lia|]. intros _. split; [exact F1|].
           intros d Hd Hne x' V' Hx' HV'. eapply F2; eauto. rewrite HV'.
           apply firstn_upd_below. lia.
        -- assert (r = repeat (k0 sp) e) by (eapply V9; [|exact Hr]; lia). subst r.
           split.
           { intros q d Hq Hd. apply nth_error_In in Hd. apply in_repeat0 in Hd. exact Hd. }
           split; [|lia]. intros _. apply repeat_get. lia.
Qed.
End Blocks.
