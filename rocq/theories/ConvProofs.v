(** Proofs about the convergence check. *)
From Verif Require Import Base Values ConvModel SpecConv.
From Coq Require Import List Arith ZArith Bool Lia.
Import ListNotations.

Lemma obind_done : forall A B (x : outcome A) (f : A -> outcome B) r,
  obind x f = Done r -> exists a, x = Done a /\ f a = Done r.
Proof. intros A B [a| |] f r H; simpl in H; try discriminate. eauto. Qed.

Lemma lift_done : forall A (x : option A) a, lift x = Done a -> x = Some a.
Proof. intros A [b|] a H; simpl in H; inversion H; auto. Qed.

Ltac odone H :=
  let a := fresh "a" in let E := fresh "E" in
  apply obind_done in H; destruct H as [a [E H]];
  try apply lift_done in E.

Section P.
Context {V : Type} (o : rops V).

Lemma check_loop_spec : forall k test lo norms hVals cnt i flags reset proj fl rs pr,
  check_loop o k test lo norms hVals cnt i flags reset proj = Done (fl, rs, pr) ->
  lo <= i ->
  length fl = length flags /\
  (forall j, j < i \/ i + cnt <= j -> nth_error fl j = nth_error flags j) /\
  (forall j, i <= j < i + cnt ->
     exists norm hval f0 f r p,
       nth_error norms (j - lo) = Some norm /\ nth_error hVals j = Some hval /\
       nth_error flags j = Some f0 /\
       judge o k (test j) f0 hval norm = Done (f, r, p) /\
       nth_error fl j = Some f /\
       (p = true -> In (j - lo) pr) /\ (r = true -> rs = true)) /\
  (exists l, pr = proj ++ l /\ NoDup l /\
     forall x, In x l -> exists j norm hval f0 f r,
       i <= j < i + cnt /\ x = j - lo /\
       nth_error norms (j - lo) = Some norm /\ nth_error hVals j = Some hval /\
       nth_error flags j = Some f0 /\
       judge o k (test j) f0 hval norm = Done (f, r, true)) /\
  (rs = true -> reset = true \/ exists j norm hval f0 f p,
       i <= j < i + cnt /\
       nth_error norms (j - lo) = Some norm /\ nth_error hVals j = Some hval /\
       nth_error flags j = Some f0 /\
       judge o k (test j) f0 hval norm = Done (f, true, p)) /\
  (reset = true -> rs = true).
Proof.
  induction cnt as [|c IH]; intros i flags reset proj fl rs pr H Hi.
  - cbn [check_loop] in H. inversion H; subst.
    split; [auto|]. split; [auto|]. split; [intros; lia|].
    split; [exists []; rewrite app_nil_r; repeat split; [constructor|intros x []]|].
    split; auto.
  - cbn [check_loop] in H.
    odone H. odone H. odone H. odone H.
    destruct a2 as [[f' r'] p']. odone H.
    apply put_inv in E3. destruct E3 as [L3 E3].
    assert (Hi' : lo <= S i) by lia.
    destruct (IH _ _ _ _ _ _ _ H Hi') as (A1 & A2 & A3 & A4 & A5 & A6). clear IH H.
    subst a2. rewrite length_upd in A1.
    unfold get in *.
    assert (Other : forall j, j <> i -> nth_error (upd flags i f') j = nth_error flags j)
      by (intros; apply nth_error_upd_neq; auto).
    split; [auto|]. split; [|split; [|split; [|split]]].
    + intros j Hj. rewrite A2 by lia. apply Other. lia.
    + intros j Hj. destruct (Nat.eq_dec j i) as [->|Ne].
      * exists a, a0, a1, f', r', p'. repeat (split; [assumption|]).
        split; [rewrite A2 by lia; apply nth_error_upd_eq; auto|].
        split.
        -- intros ->. destruct A4 as (l & -> & _). rewrite <- app_assoc.
           apply in_or_app. right. simpl. auto.
        -- intros ->. apply A6. apply orb_true_r.
      * destruct (A3 j) as (norm & hval & f0 & f & r & p & B1 & B2 & B3 & B4 & B5 & B6 & B7); [lia|].
        exists norm, hval, f0, f, r, p. rewrite Other in B3 by auto. auto 10.
    + destruct A4 as (l & El & Nl & Hl).
      assert (Hl' : forall x, In x l -> exists j norm hval f0 f r,
         S i <= j < S i + c /\ x = j - lo /\ nth_error norms (j - lo) = Some norm /\
         nth_error hVals j = Some hval /\ nth_error flags j = Some f0 /\
         judge o k (test j) f0 hval norm = Done (f, r, true)).
      { intros x Hx. destruct (Hl x Hx) as (j & norm & hval & f0 & f & r & B0 & B1 & B2 & B3 & B4 & B5).
        rewrite Other in B4 by lia. exists j, norm, hval, f0, f, r. auto 10. }
      destruct p'.
      * exists ((i - lo) :: l). split; [rewrite El, <- app_assoc; reflexivity|]. split.
        -- constructor; auto. intros Hin. destruct (Hl' _ Hin) as (j & _ & _ & _ & _ & _ & B0 & B1 & _). lia.
        -- intros x [<-|Hx].
           ++ exists i, a, a0, a1, f', r'. repeat split; auto; lia.
           ++ destruct (Hl' x Hx) as (j & norm & hval & f0 & f & r & B0 & B1 & B).
              exists j, norm, hval, f0, f, r. split; [lia|]. auto.
      * exists l. split; [auto|]. split; [auto|].
        intros x Hx. destruct (Hl' x Hx) as (j & norm & hval & f0 & f & r & B0 & B1 & B).
        exists j, norm, hval, f0, f, r. split; [lia|]. auto.
    + intros Hr. destruct (A5 Hr) as [C|(j & norm & hval & f0 & f & p & B0 & B1 & B2 & B3 & B4)].
      * apply orb_true_iff in C. destruct C as [C|C]; [auto|]. subst r'.
        right. exists i, a, a0, a1, f', p'. repeat split; auto; lia.
      * right. rewrite Other in B3 by lia. exists j, norm, hval, f0, f, p. split; [lia|]. auto.
    + intros Hr. apply A6. rewrite Hr. auto.
Qed.

Lemma project_loop_spec : forall k pn lo iev flags norms fl nm,
  project_loop o k pn lo iev flags norms = Done (fl, nm) -> NoDup iev ->
  length fl = length flags /\ length nm = length norms /\
  (forall j, ~ In j iev -> nth_error nm j = nth_error norms j) /\
  (forall j, (forall x, In x iev -> j <> lo + x) -> nth_error fl j = nth_error flags j) /\
  (forall x, In x iev -> nth_error nm x = Some (pn x) /\
     nth_error fl (lo + x) =
       Some (if r_le o (pn x) (k_tol o k) then PRACTICALLY_CONVERGED else UNCONVERGED)).
Proof.
  induction iev as [|j t IH]; intros flags norms fl nm H Nd.
  - cbn [project_loop] in H. inversion H; subst. repeat split; auto; try contradiction.
  - cbn [project_loop] in H. odone H. odone H.
    apply put_inv in E, E0. destruct E as [L E], E0 as [L0 E0].
    apply NoDup_cons_iff in Nd. destruct Nd as [Nj Nt].
    destruct (IH _ _ _ _ H Nt) as (A1 & A2 & A3 & A4 & A5). clear IH H. subst a a0.
    rewrite length_upd in A1, A2.
    split; [auto|]. split; [auto|]. split; [|split].
    + intros x Hx. rewrite A3 by (intros C; apply Hx; right; auto).
      apply nth_error_upd_neq. intros ->. apply Hx. left; auto.
    + intros x Hx. rewrite A4 by (intros y Hy; apply Hx; right; auto).
      apply nth_error_upd_neq. intros C. apply (Hx j); [left; auto|auto].
    + intros x [<-|Hx]; [|apply A5; auto].
      rewrite A3, A4; auto.
      * split; apply nth_error_upd_eq; auto.
      * intros y Hy C. apply Nj. replace j with y by lia. auto.
Qed.

(** Everything a successful check does, position by position. *)
Lemma check_spec : forall k test pn lo hi flags norms hVals reset r,
  check_convergence o k test pn lo hi flags norms hVals reset = Done r -> lo <= hi ->
  length (ck_flags r) = length flags /\ length (ck_norms r) = length norms /\
  (forall j, j < lo \/ hi <= j -> nth_error (ck_flags r) j = nth_error flags j) /\
  (forall j, hi - lo <= j -> nth_error (ck_norms r) j = nth_error norms j) /\
  (forall j, lo <= j < hi -> exists norm hval f0 f s p,
     nth_error norms (j - lo) = Some norm /\ nth_error hVals j = Some hval /\
     nth_error flags j = Some f0 /\
     judge o k (test j) f0 hval norm = Done (f, s, p) /\
     (s = true -> ck_reset r = true) /\
     nth_error (ck_norms r) (j - lo) = Some (if p then pn (j - lo) else norm) /\
     nth_error (ck_flags r) j =
       Some (if p then if r_le o (pn (j - lo)) (k_tol o k)
                       then PRACTICALLY_CONVERGED else UNCONVERGED else f)) /\
  (ck_reset r = true -> reset = true \/ exists j norm hval f0 f p,
       lo <= j < hi /\
       nth_error norms (j - lo) = Some norm /\ nth_error hVals j = Some hval /\
       nth_error flags j = Some f0 /\
       judge o k (test j) f0 hval norm = Done (f, true, p)) /\
  (reset = true -> ck_reset r = true).
Proof.
  unfold check_convergence. intros k test pn lo hi flags norms hVals reset r H Hlh.
  odone H. destruct a as [[fl rs] pr]. odone H. destruct a as [fl2 nm2].
  cbn [fst snd] in H. injection H as <-.
  destruct (check_loop_spec _ _ _ _ _ _ _ _ _ _ _ _ _ E (le_n lo))
    as (A1 & A2 & A3 & (l & A4 & A5 & A6) & A7 & A8).
  cbn [app] in A4. subst pr.
  destruct (project_loop_spec _ _ _ _ _ _ _ _ E0 A5) as (B1 & B2 & B3 & B4 & B5).
  cbn [ck_flags ck_norms ck_reset].
  replace (lo + (hi - lo)) with hi in * by lia.
  assert (Range : forall x, In x l -> x < hi - lo).
  { intros x Hx. destruct (A6 x Hx) as (j & _ & _ & _ & _ & _ & C & -> & _). lia. }
  split; [congruence|]. split; [auto|]. split; [|split; [|split; [|split]]]; auto.
  - intros j Hj. rewrite B4; [apply A2; auto|].
    intros x Hx. specialize (Range x Hx). lia.
  - intros j Hj. apply B3. intros C. specialize (Range _ C). lia.
  - intros j Hj. destruct (A3 j Hj) as (norm & hval & f0 & f & s & p & C1 & C2 & C3 & C4 & C5 & C6 & C7).
    exists norm, hval, f0, f, s, p. repeat (split; [assumption|]).
    destruct p.
    + destruct (B5 (j - lo) (C6 eq_refl)) as [D1 D2].
      replace (lo + (j - lo)) with j in D2 by lia. auto.
    + assert (Nin : ~ In (j - lo) l).
      { intros C. destruct (A6 _ C) as (j' & n' & h' & f0' & f' & s' & D0 & D1 & D2 & D3 & D4 & D5).
        assert (j' = j) by lia. subst j'. congruence. }
      rewrite B3 by auto. split; [auto|]. rewrite B4; auto.
      intros x Hx C. apply Nin. replace (j - lo) with x by lia. auto.
Qed.

Lemma outside_spec : forall k hval norm,
  outside o k hval norm = true <->
  wrong_side o (k_hermitian k) (k_target k) (k_shift o k) hval norm.
Proof.
  intros. unfold outside, wrong_side. rewrite andb_true_iff.
  destruct (k_target k); split; intros [A B]; split; auto; try discriminate; contradiction.
Qed.

(** Facts about one decision. *)
Lemma judge_converged : forall k test f0 hval norm s p,
  judge o k test f0 hval norm = Done (CONVERGED, s, p) -> p = false ->
  outside o k hval norm = false /\
  (r_le o norm (k_maxConvTol k) = true \/ test hval norm = Some true).
Proof.
  unfold judge. intros k test f0 hval norm s p H Hp.
  destruct (outside o k hval norm); [discriminate|].
  destruct (r_le o norm (k_maxConvTol k)); [auto|].
  destruct (test hval norm) as [[|]|]; [auto| |discriminate].
  destruct (_ && k_hasReset k); [discriminate|].
  destruct (_ && _ && _); [|discriminate].
  destruct (_ && _); [injection H; intros; congruence|].
  destruct f0; discriminate.
Qed.

(** The pair is CONVERGED after the check. *)
Lemma converged_spec : forall k test pn lo hi flags norms hVals reset r i,
  check_convergence o k test pn lo hi flags norms hVals reset = Done r ->
  lo <= i < hi -> nth_error (ck_flags r) i = Some CONVERGED ->
  exists norm hval,
    nth_error norms (i - lo) = Some norm /\ nth_error hVals i = Some hval /\
    nth_error (ck_norms r) (i - lo) = Some norm /\
    outside o k hval norm = false /\
    (r_le o norm (k_maxConvTol k) = true \/ test i hval norm = Some true).
Proof.
  intros k test pn lo hi flags norms hVals reset r i H Hi Hf.
  destruct (check_spec _ _ _ _ _ _ _ _ _ _ H ltac:(lia)) as (_ & _ & _ & _ & A & _).
  destruct (A i Hi) as (norm & hval & f0 & f & s & p & B1 & B2 & B3 & B4 & B5 & B6 & B7).
  rewrite B7 in Hf.
  destruct p; [destruct (r_le o _ _) in Hf; discriminate|].
  injection Hf as ->. destruct (judge_converged _ _ _ _ _ _ _ B4 eq_refl).
  exists norm, hval. auto.
Qed.

Section History.
Hypothesis OK : ordered o.
Variable P : V -> Prop.

Definition bounded (v : V) : Prop :=
  r_le o v (r_zero o) = true \/ exists x, P x /\ r_le o v x = true.

Lemma r_le_refl : forall a, r_le o a a = true.
Proof. intros a. destruct (ord_total o OK a a); auto. Qed.

Lemma bounded_le : forall a b, r_le o a b = true -> bounded b -> bounded a.
Proof.
  intros a b H [B|(x & Px & B)]; [left|right; exists x; split; auto];
    eapply (ord_trans o OK); eauto.
Qed.

Lemma bounded_max : forall a b, bounded a -> bounded b -> bounded (r_max o a b).
Proof. intros. unfold r_max. destruct (r_lt o b a); auto. Qed.

Lemma bounded_fold : forall l a, bounded a -> Forall bounded l -> bounded (fold_left (r_max o) l a).
Proof.
  induction l; intros b Hb Hl; cbn [fold_left]; auto.
  inversion Hl; subst. apply IHl; auto. apply bounded_max; auto.
Qed.

Lemma select_forall : forall (Q : V -> Prop) keep l i, Forall Q l -> Forall Q (select keep i l).
Proof.
  induction l; intros i H; cbn [select]; auto. inversion H; subst.
  destruct (keep i); auto.
Qed.

Lemma counted_forall : forall (Q : V -> Prop) lo flags norms counts cnt,
  (forall c x, c < cnt -> nth_error flags (lo + c) = Some CONVERGED ->
     nth_error norms c = Some x -> Q x) ->
  Forall Q (counted lo flags norms counts cnt).
Proof.
  induction cnt as [|c IH]; intros H; cbn [counted]; [constructor|].
  apply Forall_app. split; [apply IH; intros c1 x1 L1 F1 N1; apply (H c1 x1); auto|].
  destruct (nth_error flags (lo + c)) as [[| | |]|] eqn:E1; auto.
  destruct (nth_error norms c) as [y|] eqn:E2; auto.
  destruct (counts c); auto. constructor; auto. eapply H; eauto.
Qed.

Definition inv (s : tol_state) : Prop := bounded (t_tol s) /\ Forall bounded (t_recorded s).

Definition no_level (e : @event V) : Prop := match e with OrthoLevel _ => False | _ => True end.

Definition accepts_in (e : @event V) : Prop := forall x, accepted_by_user [e] x -> P x.

Lemma checked_bounded : forall k test pn lo hi flags norms hVals counts tl r c x,
  check_convergence o (with_tol k tl) test pn lo hi flags norms hVals false = Done r ->
  bounded tl ->
  accepts_in (Check k test pn lo hi flags norms hVals counts) ->
  c < hi - lo -> nth_error (ck_flags r) (lo + c) = Some CONVERGED ->
  nth_error (ck_norms r) c = Some x -> bounded x.
Proof.
  intros k test pn lo hi flags norms hVals counts tl r c x H B Acc Hc Hf Hx.
  destruct (converged_spec _ _ _ _ _ _ _ _ _ _ (lo + c) H ltac:(lia) Hf)
    as (norm & hval & A1 & A2 & A3 & _ & A5).
  replace (lo + c - lo) with c in * by lia.
  assert (norm = x) by congruence. subst norm.
  destruct A5 as [A5|A5].
  - cbn [k_maxConvTol with_tol] in A5. eapply bounded_le; eauto.
  - right. exists x. split; [|apply r_le_refl]. apply Acc.
    unfold accepted_by_user.
    exists k, test, pn, lo, hi, flags, norms, hVals, counts, (lo + c), hval.
    replace (lo + c - lo) with c by lia.
    repeat (split; [simpl; auto; lia|]). auto.
Qed.

Lemma tol_step_inv : forall s e s', tol_step o s e = Done s' -> inv s ->
  no_level e -> accepts_in e -> inv s'.
Proof.
  intros s e s' H [I1 I2] Ne Acc. destruct e; cbn [tol_step no_level] in *; try contradiction.
  - odone H. injection H as <-.
    assert (F : Forall bounded (counted lo (ck_flags a) (ck_norms a) counts (hi - lo))).
    { apply counted_forall. intros c x. eapply checked_bounded; eauto. }
    split; cbn [t_tol t_recorded]; [apply bounded_fold; auto|apply Forall_app; auto].
  - injection H as <-. split; auto. left. apply r_le_refl.
  - injection H as <-. split; auto. cbn [t_tol]. apply bounded_fold; [|apply select_forall; auto].
    destruct zero; auto. left. apply r_le_refl.
Qed.

Lemma tol_run_inv : forall es s s', tol_run o s es = Done s' -> inv s ->
  Forall no_level es -> Forall accepts_in es -> inv s'.
Proof.
  induction es as [|e t IH]; intros s s' H I N A; cbn [tol_run] in H.
  - injection H as <-. auto.
  - odone H. inversion N; inversion A; subst. eapply IH; eauto. eapply tol_step_inv; eauto.
Qed.

End History.
End P.
