From Coq Require Import List Arith Lia Bool Ring_theory Ring.
From Verif Require Import Base OrthoModel SpecOrtho OrthoProofs OrthoProofs2 RestartProofs2.
Import ListNotations.

(** In exact arithmetic a vector is replaced by a random one only if it is
    dependent on the previous ones. *)
Section Dep.
Variable sp : space.
Hypothesis E : exact sp.
Hypothesis O : ordered sp.
Variable hasprimme hasRL : bool.
Variable rnd : nat -> X sp.
Notation bip := (bip sp).
Notation mO := (maxNumOrthos hasprimme).

Section Vector.
Variable prev locked : list (X sp).
Hypothesis Horth : orthonormal sp (locked ++ prev).
Variable xin : X sp.
Notation all := (locked ++ prev).
Notation proj := (fun y => deflate sp (locked ++ prev) (map (fun u => bip u y) (locked ++ prev)) y).
Notation turn := (turn sp hasprimme true hasRL rnd (length prev) prev locked).
Notation opass' := (orth_pass sp hasprimme true hasRL (length prev) prev locked).

Lemma proj_proj : proj (proj xin) = proj xin.
Proof.
  apply (deflate_zero sp E). intros c Hc. apply in_map_iff in Hc.
  destruct Hc as (u & <- & Hu). apply (deflate_orth sp E); auto.
Qed.

Lemma pass_dec : forall st, bx_ok sp st ->
  match opass' st with
  | Go _ s =>
      let w := proj (v _ st) in
      let t := if nOrth _ st =? 0 then norm sp (v _ st) else s0 _ st in
      v _ s = w /\ updR _ s = updR _ st /\ bx_ok sp s /\
      length (col _ s) = length (col _ st) /\
      ((nOrth _ s = mO /\ (kle sp (norm sp w) (kmul sp (keps sp) t) = true \/
          kfin sp t = false \/ kfin sp (norm sp w) = false \/
          kfin sp (kinv sp (norm sp w)) = false)) \/
       (nOrth _ s = S (nOrth _ st) /\ s0 _ s = norm sp w /\
        kle sp (norm sp w) (kmul sp (keps sp) t) = false /\
        (kle sp (norm sp w) (kmul sp (ktol sp) t) = true \/ S (nOrth _ st) < mO)))
  | _ => True
  end.
Proof.
  intros st Hbx.
  destruct (opass' st) as [s|s|s] eqn:Ep; auto. intros w t.
  assert (Hl : length (col _ s) = length (col _ st)).
  { unfold orth_pass in Ep. cbv zeta in Ep.
    repeat match type of Ep with ((if ?c then _ else _) = _) => destruct c end;
      inversion Ep; subst s; cbn [col]; rewrite ?length_upd;
      destruct (updR _ st && true); rewrite ?length_upd, ?length_addto; auto. }
  destruct (pass_form sp E hasprimme true hasRL prev locked st s Hbx (or_introl Ep))
    as (_ & F2 & [(_ & F3 & F4 & _)|(F3 & _)]); [|congruence].
  repeat (split; [assumption|]).
  clear Hl F2 F3 F4.
  assert (Hb : (match bapp sp with
     | Some f => if bxup _ st then bx _ st else f (v _ st)
     | None => v _ st end) =
     (match bapp sp with Some f => f (v _ st) | None => v _ st end)).
  { destruct (bapp sp) as [f|] eqn:Ef; auto. destruct (bxup _ st) eqn:Eu; auto. }
  unfold orth_pass in Ep. cbv zeta in Ep. rewrite Hb in Ep.
  change (fun u : X sp => ip sp u match bapp sp with Some f => f (v _ st) | None => v _ st end)
    with (fun u : X sp => bip u (v _ st)) in Ep.
  rewrite deflate_app in Ep by (rewrite map_length; reflexivity).
  rewrite <- map_app in Ep. fold w in Ep.
  change (ksqrt sp (kre sp (ip sp w match bapp sp with Some f => f w | None => w end)))
    with (norm sp w) in Ep.
  change (ksqrt sp (kre sp (ip sp (v _ st) match bapp sp with Some f => f (v _ st) | None => v _ st end)))
    with (norm sp (v _ st)) in Ep.
  change (S (nOrth _ st) =? 1) with (nOrth _ st =? 0) in Ep. fold t in Ep.
  match type of Ep with ((if ?c then _ else _) = _) => destruct c eqn:C1 end.
  - inversion Ep; subst s. cbn [nOrth s0]. left. split; [reflexivity|].
    apply orb_true_iff in C1. destruct C1 as [C1|C1]; [|auto].
    apply orb_true_iff in C1. destruct C1 as [C1|C1]; apply negb_true_iff in C1; auto.
  - apply orb_false_iff in C1. destruct C1 as [C1 C2].
    match type of Ep with ((if ?c then _ else _) = _) => destruct c eqn:C3 end.
    + inversion Ep; subst s. cbn [nOrth s0]. right. repeat split; auto.
      apply orb_true_iff in C3. destruct C3 as [C3|C3]; auto.
      apply andb_true_iff in C3. destruct C3 as [_ C3]. apply Nat.ltb_lt in C3. auto.
    + match type of Ep with ((if ?c then _ else _) = _) => destruct c eqn:C4 end;
        inversion Ep; subst s. cbn [nOrth s0]. left. auto.
Qed.

Definition small : Prop :=
  kle sp (norm sp (proj xin)) (kmul sp (keps sp) (norm sp xin)) = true.

Definition dinv (st : vst sp) : Prop :=
  bx_ok sp st /\ length prev < length (col _ st) /\
  if updR _ st then
    (nOrth _ st = 0 /\ v _ st = xin) \/
    (1 <= nOrth _ st < mO /\ v _ st = proj xin /\ norm sp (proj xin) <> k0 sp /\
     s0 _ st = norm sp (proj xin)) \/
    (nOrth _ st = mO /\ small)
  else small.

Definition dend (z : vst sp) : Prop :=
  nth_error (col _ z) (length prev) = Some (k0 sp) -> small.

Lemma pass_dep : forall st, dinv st -> (updR _ st = true -> nOrth _ st < mO) ->
  match opass' st with Go _ s => dinv s | Take _ s | GiveUp _ s => dend s end.
Proof.
  intros st (Hb & Hl & Hd) Hn.
  pose proof (pass_dec st Hb) as P. cbv zeta in P.
  destruct (opass' st) as [s|s|s] eqn:Ep.
  - destruct P as (P1 & P2 & P3 & P4 & P5).
    split; [exact P3|]. split; [lia|]. rewrite P2.
    destruct (updR _ st) eqn:Eu; [|exact Hd]. specialize (Hn eq_refl).
    assert (Hpos : 1 < mO) by (unfold maxNumOrthos; destruct hasprimme; lia).
    destruct Hd as [(D1 & D2)|[(D1 & D2 & D3 & D4)|(D1 & D2)]]; [| |lia].
    + rewrite D1, D2 in P5. cbn [Nat.eqb] in P5. rewrite D2 in P1.
      right. destruct P5 as [(Q1 & Q2)|(Q1 & Q2 & Q3 & Q4)].
      * right. split; [exact Q1|]. destruct Q2 as [Q2|[Q2|[Q2|Q2]]].
        -- exact Q2.
        -- rewrite (od_fin sp O) in Q2. discriminate.
        -- rewrite (od_fin sp O) in Q2. discriminate.
        -- unfold small.
           destruct (kle sp (norm sp (proj xin)) (kmul sp (keps sp) (norm sp xin))) eqn:Ek; auto.
           rewrite (od_inv sp O) in Q2; [discriminate|].
           intros H0. rewrite H0 in Ek. rewrite (od_zero sp O) in Ek. discriminate.
      * left. split; [lia|]. split; [exact P1|]. split; [|exact Q2].
        intros H0. rewrite H0, (od_zero sp O) in Q3. discriminate.
    + replace (nOrth _ st =? 0) with false in P5 by (symmetry; apply Nat.eqb_neq; lia).
      rewrite D2 in P1, P5. rewrite proj_proj in P1, P5. rewrite D4 in P5.
      right. left. destruct P5 as [(Q1 & Q2)|(Q1 & Q2 & Q3 & Q4)].
      * exfalso. destruct Q2 as [Q2|[Q2|[Q2|Q2]]].
        -- rewrite (od_eps sp O) in Q2 by auto. discriminate.
        -- rewrite (od_fin sp O) in Q2. discriminate.
        -- rewrite (od_fin sp O) in Q2. discriminate.
        -- rewrite (od_inv sp O) in Q2 by auto. discriminate.
      * destruct Q4 as [Q4|Q4].
        -- rewrite (od_tol sp O) in Q4 by auto. discriminate.
        -- split; [lia|]. auto.
  - destruct (pass_form sp E hasprimme true hasRL prev locked st s Hb (or_intror Ep))
      as (_ & F2 & [(F3 & _)|(_ & F3 & _ & F5)]); [congruence|].
    intros Hz. destruct (updR _ st) eqn:Eu; [|exact Hd].
    cbn [andb] in F5. rewrite F5, nth_error_upd_eq in Hz by (rewrite length_addto; auto).
    congruence.
  - exfalso. eapply pass_no_giveup; eauto.
Qed.

Lemma freeze_dep : forall st, dinv st -> mO <= nOrth _ st ->
  small /\ length prev < length (col _ (freeze sp true (length prev) st)).
Proof.
  intros st (Hb & Hl & Hd) Hn. unfold freeze.
  assert (1 < mO) by (unfold maxNumOrthos; destruct hasprimme; lia).
  destruct (updR _ st); cbn [col]; rewrite ?length_upd; [|auto].
  split; [|auto]. destruct Hd as [(D1 & D2)|[(D1 & D2 & D3 & D4)|(D1 & D2)]]; auto; lia.
Qed.

Lemma turn_dep : forall st, dinv st ->
  match turn st with Go _ s => dinv s | Take _ s | GiveUp _ s => dend s end.
Proof.
  intros st Hd. unfold OrthoModel.turn.
  destruct (mO <=? nOrth _ st) eqn:En.
  - apply Nat.leb_le in En. destruct (freeze_dep st Hd En) as (F1 & F2).
    destruct (maxNumRandoms <=? nrand _ (freeze sp true (length prev) st)).
    + intros _. exact F1.
    + assert (Hu : updR _ (freeze sp true (length prev) st) = false).
      { unfold freeze. destruct (updR _ st) eqn:Eu; auto. }
      apply pass_dep.
      * split; [apply bx_random|]. split; [exact F2|].
        cbn [randomise updR]. rewrite Hu. exact F1.
      * cbn [randomise updR]. rewrite Hu. discriminate.
  - apply Nat.leb_gt in En. apply pass_dep; auto.
Qed.

Lemma loop_dep : forall fuel st ok z, dinv st ->
  vec_loop sp hasprimme true hasRL rnd fuel (length prev) prev locked st = Some (ok, z) ->
  dend z.
Proof.
  intros fuel st ok z Hi H.
  pose proof (vec_loop_inv sp hasprimme true hasRL rnd dinv dend dend (length prev) prev locked) as L.
  assert (Hs : forall st, dinv st -> match turn st with
      Go _ s => dinv s | Take _ s => dend s | GiveUp _ s => dend s end).
  { intros s Hs. pose proof (turn_dep s Hs) as T. destruct turn; auto. }
  specialize (L Hs fuel st ok z Hi H). destruct ok; auto.
Qed.

Lemma small_dependent : small -> dependent sp all xin.
Proof.
  intros H. exists (proj xin), (map (fun u => bip u xin) all).
  split; [apply map_length|]. split; [symmetry; apply (deflate_lincomb sp E)|].
  split; [intros u Hu; apply (deflate_orth sp E); auto|exact H].
Qed.
End Vector.

Lemma vecs_R_frame : forall k i b1 locked s s' j,
  j < i -> b1 <= j ->
  vecs sp hasprimme true hasRL rnd k i b1 locked s = Some s' ->
  nth_error (oR _ s') (j - b1) = nth_error (oR _ s) (j - b1).
Proof.
  induction k as [|k IH]; intros i b1 locked s s' j Hj Hb H.
  - inversion H; subst. reflexivity.
  - cbn [vecs] in H. unfold get in H.
    destruct (nth_error (oV _ s) i) as [x|] eqn:Ex; [|discriminate].
    destruct (nth_error (oR _ s) (i - b1)) as [c|]; [|discriminate].
    destruct (nth_error (oRL _ s) (i - b1)) as [cL|]; [|discriminate].
    cbn [bind] in H.
    match type of H with bind ?e _ = _ => destruct e as [[ok z]|] end; [|discriminate].
    cbn [bind] in H. destruct ok.
    + apply (IH _ _ _ _ _ j) in H; [|lia|lia]. rewrite H. cbn [oR].
      apply nth_error_upd_neq. lia.
    + inversion H; subst s'. cbn [oR]. apply nth_error_upd_neq. lia.
Qed.

Lemma vecs_dep : forall locked b1 e k i s s',
  b1 <= i -> i + k = e -> oout _ s = i ->
  orthonormal sp (locked ++ firstn i (oV _ s)) ->
  (forall j r, nth_error (oR _ s) j = Some r -> length r = e) ->
  vecs sp hasprimme true hasRL rnd k i b1 locked s = Some s' ->
  forall j x r, i <= j <= oout _ s' -> j < e ->
    nth_error (oV _ s) j = Some x -> nth_error (oR _ s') (j - b1) = Some r ->
    nth_error r j = Some (k0 sp) ->
    dependent sp (locked ++ firstn j (oV _ s')) x.
Proof.
  intros locked b1 e. induction k as [|k IH]; intros i s s' Hb Hk Ho Hs HR H j x r Hj Hje Hx Hr Hz.
  - lia.
  - cbn [vecs] in H. unfold get in H.
    destruct (nth_error (oV _ s) i) as [y|] eqn:Ey; [|discriminate].
    destruct (nth_error (oR _ s) (i - b1)) as [c|] eqn:Ec; [|discriminate].
    destruct (nth_error (oRL _ s) (i - b1)) as [cL|]; [|discriminate].
    cbn [bind] in H.
    assert (Hi : i < length (oV _ s)) by (apply nth_error_Some; congruence).
    assert (HiR : i - b1 < length (oR _ s)) by (apply nth_error_Some; congruence).
    assert (Hl : length (firstn i (oV _ s)) = i) by (apply firstn_length_le; lia).
    match type of H with bind ?e _ = _ => destruct e as [[ok z]|] eqn:El end; [|discriminate].
    cbn [bind] in H. cbn [orb] in El.
    assert (Hd : dend (firstn i (oV _ s)) locked y z).
    { rewrite <- Hl in El at 1. eapply loop_dep; [exact Hs| |exact El].
      split; [intros Hf; discriminate|]. cbn [col updR nOrth v].
      split; [|left; auto]. rewrite (HR _ _ Ec), Hl. lia. }
    unfold dend in Hd. rewrite Hl in Hd.
    destruct ok.
    + destruct (Nat.eq_dec j i) as [->|Hn].
      * rewrite Ey in Hx. inversion Hx; subst y.
        pose proof (vecs_R_frame _ _ _ _ _ _ i (Nat.lt_succ_diag_r i) Hb H) as HRf.
        rewrite HRf in Hr. cbn [oR] in Hr. rewrite nth_error_upd_eq in Hr by auto.
        inversion Hr; subst r.
        assert (HV : firstn i (oV _ s') = firstn i (oV _ s)).
        { apply nth_error_ext. intros q.
          destruct (Nat.lt_ge_cases q i) as [Hq|Hq].
          - rewrite !nth_error_firstn' by auto.
            pose proof (fun e => vecs_frame _ _ _ _ _ _ _ _ _ _ _ q (Nat.le_le_succ_r _ _ Hb) e H) as F.
            rewrite (F eq_refl) by lia. cbn [oV]. apply nth_error_upd_neq. lia.
          - rewrite !(proj2 (nth_error_None _ _)); auto; rewrite firstn_length; lia. }
        rewrite HV. apply small_dependent; auto.
      * eapply (IH (S i)); [| | | | | exact H| | exact Hje| | exact Hr | exact Hz]; try lia; auto.
        -- cbn [oV]. rewrite firstn_upd_same by auto. rewrite app_assoc.
           rewrite <- Hl in El at 1. apply (loop_good sp E) in El; auto.
           ++ destruct El as (G1 & G2). apply (orthonormal_snoc sp E); auto.
           ++ intros Hf. discriminate.
        -- cbn [oR]. intros q r' Hq. destruct (Nat.eq_dec q (i - b1)) as [->|Hnq].
           ++ rewrite nth_error_upd_eq in Hq by auto. inversion Hq; subst r'.
              assert (Hinv : forall fuel st ok z, length (col _ st) = e ->
                vec_loop sp hasprimme true hasRL rnd fuel i (firstn i (oV _ s)) locked st = Some (ok, z) ->
                length (col _ z) = e).
              { clear. induction fuel as [|f IH]; intros st ok z Hst Hl; [discriminate|].
                cbn [vec_loop] in Hl.
                pose proof (turn_lengths sp hasprimme true hasRL rnd i (firstn i (oV _ s)) locked st) as T.
                destruct turn; [eapply IH; [|eassumption]; lia|inversion Hl; subst; lia|
                        inversion Hl; subst; lia]. }
              eapply Hinv; [|exact El]. cbn [col]. eapply HR; eauto.
           ++ rewrite nth_error_upd_neq in Hq by auto. eapply HR; eauto.
        -- cbn [oV]. rewrite nth_error_upd_neq by lia. exact Hx.
    + inversion H; subst s'. cbn [oout oV oR] in *.
      assert (j = i) by lia. subst j. rewrite nth_error_upd_eq in Hr by auto.
      inversion Hr; subst r. rewrite firstn_upd_below by lia.
      rewrite Ey in Hx. inversion Hx; subst y. apply small_dependent; auto.
Qed.
End Dep.
