From Coq Require Import List Arith Lia Bool Ring_theory Ring.
From Verif Require Import Base OrthoModel SpecOrtho.
Import ListNotations.

(* ------------------------------------------------------------------ *)
(** Control flow: no law of arithmetic is used. *)
Section Control.
Variable sp : space.
Variable hasprimme hasR hasRL : bool.
Variable rnd : nat -> X sp.
Notation mO := (maxNumOrthos hasprimme).
Notation mR := maxNumRandoms.
Notation turn := (turn sp hasprimme hasR hasRL rnd).
Notation vec_loop := (vec_loop sp hasprimme hasR hasRL rnd).
Notation vecs := (vecs sp hasprimme hasR hasRL rnd).
Notation vst := (vst sp).

Lemma mO_pos : 0 < mO.
Proof. unfold maxNumOrthos. destruct hasprimme; lia. Qed.

Definition budget (st : vst) : nat := (mR - nrand _ st) * mO + (mO - nOrth _ st).

(** what a pass does to the counters *)
Lemma pass_counts : forall i prev locked st s,
  nOrth _ st < mO ->
  (orth_pass sp hasprimme hasR hasRL i prev locked st = Go _ s \/
   orth_pass sp hasprimme hasR hasRL i prev locked st = Take _ s) ->
  nrand _ s = nrand _ st /\ seed _ s = seed _ st /\ npass _ s = S (npass _ st) /\
  nOrth _ st < nOrth _ s <= mO /\ updR _ s = updR _ st.
Proof.
  intros i prev locked st s Hlt H. unfold orth_pass in H. cbv zeta in H.
  pose proof mO_pos as Hm.
  repeat match type of H with
         | ((if ?c then _ else _) = _ \/ _) => destruct c
         | (Go _ _ = _ \/ _) => destruct H as [H|H]; [|discriminate]
         | (Take _ _ = _ \/ _) => destruct H as [H|H]; [discriminate|]
         end; inversion H; subst; cbn [nrand seed npass nOrth updR]; repeat split; lia.
Qed.

Lemma pass_no_giveup : forall i prev locked st s,
  orth_pass sp hasprimme hasR hasRL i prev locked st <> GiveUp _ s.
Proof.
  intros i prev locked st s H. unfold orth_pass in H. cbv zeta in H.
  repeat match type of H with context [if ?c then _ else _] => destruct c end;
    discriminate.
Qed.

Lemma freeze_counts : forall i st,
  nrand _ (freeze sp hasR i st) = nrand _ st /\
  seed _ (freeze sp hasR i st) = seed _ st /\
  npass _ (freeze sp hasR i st) = npass _ st /\
  nOrth _ (freeze sp hasR i st) = nOrth _ st /\ updR _ (freeze sp hasR i st) = false.
Proof.
  intros i st. unfold freeze. destruct (updR _ st) eqn:E; cbn; auto.
Qed.

Lemma turn_counts : forall i prev locked st,
  nOrth _ st <= mO -> nrand _ st <= mR ->
  match turn i prev locked st with
  | Go _ s | Take _ s =>
      nOrth _ s <= mO /\ nrand _ st <= nrand _ s <= mR /\
      seed _ s - nrand _ s = seed _ st - nrand _ st /\
      seed _ s + nrand _ st = seed _ st + nrand _ s /\
      npass _ s = S (npass _ st) /\ budget s < budget st
  | GiveUp _ s =>
      nrand _ s = nrand _ st /\ seed _ s = seed _ st /\ npass _ s = npass _ st /\
      nrand _ s = mR /\ updR _ s = false
  end.
Proof.
  intros i prev locked st H1 H2. unfold OrthoModel.turn.
  pose proof mO_pos as Hm.
  destruct (mO <=? nOrth _ st) eqn:E.
  - apply Nat.leb_le in E.
    destruct (freeze_counts i st) as (F1 & F2 & F3 & F4 & F5).
    destruct (mR <=? nrand _ (freeze sp hasR i st)) eqn:E2.
    + apply Nat.leb_le in E2. rewrite F1, F2, F3 in *. repeat split; auto; lia.
    + apply Nat.leb_gt in E2. rewrite F1 in E2.
      set (r := randomise sp rnd (freeze sp hasR i st)).
      assert (R1 : nrand _ r = S (nrand _ st)) by (cbn; lia).
      assert (R2 : seed _ r = S (seed _ st)) by (cbn; lia).
      assert (R3 : npass _ r = npass _ st) by (cbn; lia).
      assert (R4 : nOrth _ r = 0) by reflexivity.
      clearbody r.
      destruct (orth_pass sp hasprimme hasR hasRL i prev locked r) as [s|s|s] eqn:EP.
      * destruct (pass_counts i prev locked r s) as (P1 & P2 & P3 & P4 & _); [lia|auto|].
        unfold budget. rewrite P1, P2, P3, R1, R2, R3. repeat split; try lia.
        assert (mR - nrand _ st = S (mR - S (nrand _ st))) as -> by lia.
        cbn [Nat.mul]. lia.
      * destruct (pass_counts i prev locked r s) as (P1 & P2 & P3 & P4 & _); [lia|auto|].
        unfold budget. rewrite P1, P2, P3, R1, R2, R3. repeat split; try lia.
        assert (mR - nrand _ st = S (mR - S (nrand _ st))) as -> by lia.
        cbn [Nat.mul]. lia.
      * exfalso. eapply pass_no_giveup; eauto.
  - apply Nat.leb_gt in E.
    destruct (orth_pass sp hasprimme hasR hasRL i prev locked st) as [s|s|s] eqn:EP.
    + destruct (pass_counts i prev locked st s) as (P1 & P2 & P3 & P4 & _); [lia|auto|].
      unfold budget. rewrite P1, P2, P3. repeat split; try lia.
    + destruct (pass_counts i prev locked st s) as (P1 & P2 & P3 & P4 & _); [lia|auto|].
      unfold budget. rewrite P1, P2, P3. repeat split; try lia.
    + exfalso. eapply pass_no_giveup; eauto.
Qed.

Lemma vec_loop_done : forall fuel i prev locked st,
  nOrth _ st <= mO -> nrand _ st <= mR -> budget st < fuel ->
  exists ok s, vec_loop fuel i prev locked st = Some (ok, s) /\
    nrand _ s <= mR /\ seed _ s + nrand _ st = seed _ st + nrand _ s /\
    npass _ s <= npass _ st + budget st /\
    npass _ st <= npass _ s /\ (ok = false -> nrand _ s = mR).
Proof.
  induction fuel as [|f IH]; intros i prev locked st H1 H2 Hb; [lia|].
  cbn [OrthoModel.vec_loop].
  pose proof (turn_counts i prev locked st H1 H2) as T.
  destruct (turn i prev locked st) as [s|s|s].
  - destruct T as (T1 & T2 & T3 & T4 & T5 & T6).
    destruct (IH i prev locked s) as (ok & z & Z0 & Z1 & Z2 & Z3 & Z4 & Z5); try lia.
    exists ok, z. repeat split; auto; lia.
  - destruct T as (T1 & T2 & T3 & T4 & T5 & T6).
    exists true, s. repeat split; auto; try lia; discriminate.
  - destruct T as (T1 & T2 & T3 & T4 & T5).
    exists false, s. repeat split; auto; try lia.
Qed.

(** The loop as a relation: what holds at its end follows from an invariant of
    the turns. *)
Lemma vec_loop_inv : forall (P Q : vst -> Prop) (F : vst -> Prop) i prev locked,
  (forall st, P st -> match turn i prev locked st with
                      | Go _ s => P s | Take _ s => Q s | GiveUp _ s => F s end) ->
  forall fuel st ok z, P st -> vec_loop fuel i prev locked st = Some (ok, z) ->
  if ok then Q z else F z.
Proof.
  intros P Q F i prev locked Hstep. induction fuel as [|f IH]; intros st ok z HP H.
  - discriminate.
  - cbn [OrthoModel.vec_loop] in H. pose proof (Hstep st HP) as T.
    destruct (turn i prev locked st) as [s|s|s].
    + eapply IH; eauto.
    + inversion H; subst. exact T.
    + inversion H; subst. exact T.
Qed.

(** Lengths of the columns never change. *)
Lemma length_addto : forall (d s : list (K sp)), length (addto sp d s) = length d.
Proof.
  induction d as [|x d IH]; intros [|y s]; cbn [addto length]; auto.
Qed.

Lemma turn_lengths : forall i prev locked st,
  match turn i prev locked st with
  | Go _ s | Take _ s | GiveUp _ s =>
      length (col _ s) = length (col _ st) /\ length (colL _ s) = length (colL _ st)
  end.
Proof.
  assert (P : forall i prev locked st,
    match orth_pass sp hasprimme hasR hasRL i prev locked st with
    | Go _ s | Take _ s | GiveUp _ s =>
      length (col _ s) = length (col _ st) /\ length (colL _ s) = length (colL _ st)
    end).
  { intros i prev locked st. unfold orth_pass. cbv zeta.
    repeat match goal with |- context [if ?c then _ else _] => destruct c end;
      cbn [col colL]; rewrite ?length_upd, ?length_addto; auto. }
  assert (F : forall i st, length (col _ (freeze sp hasR i st)) = length (col _ st) /\
                           length (colL _ (freeze sp hasR i st)) = length (colL _ st)).
  { intros i st. unfold freeze. destruct (updR _ st), hasR; cbn [col colL];
      rewrite ?length_upd; auto. }
  intros i prev locked st. unfold OrthoModel.turn.
  destruct (mO <=? nOrth _ st).
  - destruct (mR <=? nrand _ (freeze sp hasR i st)); [apply F|].
    pose proof (P i prev locked (randomise sp rnd (freeze sp hasR i st))) as T.
    destruct (F i st) as (F1 & F2).
    destruct orth_pass; cbn [randomise col colL] in T; rewrite F1, F2 in T; exact T.
  - apply P.
Qed.

(** The loop over the vectors. *)
Lemma vecs_done : forall k i b1 locked s,
  b1 <= i -> i + k <= length (oV _ s) -> i + k - b1 <= length (oR _ s) ->
  i + k - b1 <= length (oRL _ s) -> oout _ s = i ->
  exists s', vecs k i b1 locked s = Some s' /\
    i <= oout _ s' <= i + k /\
    length (oV _ s') = length (oV _ s) /\ length (oR _ s') = length (oR _ s) /\
    length (oRL _ s') = length (oRL _ s) /\
    oseed _ s <= oseed _ s' <= oseed _ s + mR * k /\
    opass _ s <= opass _ s' <= opass _ s + S mR * mO * k /\
    (oout _ s' < i + k -> oseed _ s + mR <= oseed _ s').
Proof.
  induction k as [|k IH]; intros i b1 locked s Hb HV HR HL Ho.
  - exists s. cbn [OrthoModel.vecs]. repeat split; auto; try lia.
  - cbn [OrthoModel.vecs].
    assert (exists x, nth_error (oV _ s) i = Some x) as [x Ex].
    { destruct (nth_error (oV _ s) i) eqn:E; eauto. apply nth_error_None in E. lia. }
    assert (exists x, nth_error (oR _ s) (i - b1) = Some x) as [c Ec].
    { destruct (nth_error (oR _ s) (i - b1)) eqn:E; eauto. apply nth_error_None in E. lia. }
    assert (exists x, nth_error (oRL _ s) (i - b1) = Some x) as [cL EcL].
    { destruct (nth_error (oRL _ s) (i - b1)) eqn:E; eauto. apply nth_error_None in E. lia. }
    unfold get. rewrite Ex, Ec, EcL. cbn [bind].
    set (st := Vst sp x x false 0 0 (oseed _ s) (opass _ s) (hasR || hasRL) c cL (k0 sp)).
    destruct (vec_loop_done (fuel0 hasprimme) i (firstn i (oV _ s)) locked st)
      as (ok & z & Z0 & Z1 & Z2 & Z3 & Z4 & Z5).
    { cbn. lia. } { cbn. lia. }
    { unfold budget, fuel0. cbn [nrand nOrth st]. rewrite !Nat.sub_0_r. cbn [Nat.mul]. lia. }
    assert (B : budget st = S mR * mO).
    { unfold budget. cbn [nrand nOrth st]. rewrite !Nat.sub_0_r. cbn [Nat.mul]. lia. }
    rewrite B in Z3. cbn [nrand seed npass st] in Z2, Z3, Z4.
    rewrite Z0. cbn [bind].
    set (PB := S mR * mO) in *. clearbody PB.
    destruct ok.
    + match goal with |- exists s', vecs k (S i) b1 locked ?s1 = _ /\ _ => set (s1' := s1) end.
      destruct (IH (S i) b1 locked s1') as (s' & V0 & V1 & V2 & V3 & V4 & V5 & V6 & V7).
      { lia. } { cbn [oV s1']. rewrite length_upd. lia. }
      { cbn [oR s1']. rewrite length_upd. lia. }
      { cbn [oRL s1']. rewrite length_upd. lia. } { reflexivity. }
      cbn [oV oR oRL oseed opass s1'] in V2, V3, V4, V5, V6, V7.
      rewrite length_upd in V2, V3, V4.
      exists s'. repeat split; auto; try nia.
    + eexists; split; [reflexivity|]. cbn [oV oR oRL oseed opass oout].
      rewrite !length_upd. specialize (Z5 eq_refl). repeat split; try nia.
Qed.

Lemma vecs_out_ge : forall k i b1 locked s s',
  vecs k i b1 locked s = Some s' -> oout _ s = i -> i <= oout _ s'.
Proof.
  induction k as [|k IH]; intros i b1 locked s s' H Ho.
  - inversion H; subst. lia.
  - cbn [OrthoModel.vecs] in H. unfold get in H.
    destruct (nth_error (oV _ s) i) as [x|] eqn:Ex; [|discriminate].
    destruct (nth_error (oR _ s) (i - b1)) as [c|]; [|discriminate].
    destruct (nth_error (oRL _ s) (i - b1)) as [cL|]; [|discriminate].
    cbn [bind] in H.
    match type of H with bind ?e _ = _ => destruct e as [[ok z]|] end; [|discriminate].
    cbn [bind] in H. destruct ok.
    + apply IH in H; [lia|reflexivity].
    + inversion H; subst. cbn [oout]. lia.
Qed.

(** Outside the range nothing is written, and the vector that failed is the last
    one touched. *)
Lemma vecs_frame : forall k i b1 locked s s' j,
  b1 <= i -> oout _ s = i ->
  vecs k i b1 locked s = Some s' ->
  j < i \/ (oout _ s' < j) \/ i + k <= j ->
  nth_error (oV _ s') j = nth_error (oV _ s) j.
Proof.
  induction k as [|k IH]; intros i b1 locked s s' j Hb Ho H Hj.
  - inversion H; subst. reflexivity.
  - cbn [OrthoModel.vecs] in H. unfold get in H.
    destruct (nth_error (oV _ s) i) as [x|] eqn:Ex; [|discriminate].
    destruct (nth_error (oR _ s) (i - b1)) as [c|]; [|discriminate].
    destruct (nth_error (oRL _ s) (i - b1)) as [cL|]; [|discriminate].
    cbn [bind] in H.
    match type of H with bind ?e _ = _ => destruct e as [[ok z]|] end; [|discriminate].
    cbn [bind] in H. destruct ok.
    + pose proof (vecs_out_ge _ _ _ _ _ _ H eq_refl) as Hi.
      assert (Hb' : b1 <= S i) by lia.
      pose proof (fun e => IH _ _ _ _ _ j Hb' e H) as IH'.
      specialize (IH' eq_refl). rewrite IH' by lia.
      cbn [oV]. apply nth_error_upd_neq. lia.
    + inversion H; subst s'. cbn [oout oV] in *. apply nth_error_upd_neq. lia.
Qed.
End Control.

(* ------------------------------------------------------------------ *)
(** Exact arithmetic. *)
Section Exact.
Variable sp : space.
Hypothesis E : exact sp.
Add Ring Kring : (ex_ring sp E).
Notation "a [+] b" := (kadd sp a b) (at level 50, left associativity).
Notation "a [*] b" := (kmul sp a b) (at level 40, left associativity).
Notation "a (+) b" := (xadd sp a b) (at level 50, left associativity).
Notation bip := (bip sp).
Notation lincomb := (lincomb sp).

Lemma bip_x0 : forall u, bip u (x0 sp) = k0 sp.
Proof. intros u. rewrite <- (ex_scal0 sp E u), (ex_ips sp E). ring. Qed.

Lemma bip_sym0 : forall u w, bip u w = k0 sp -> bip w u = k0 sp.
Proof. intros u w H. rewrite (ex_herm sp E u w), H. apply (ex_conj0 sp E). Qed.

Lemma x0_add : forall x, x0 sp (+) x = x.
Proof. intros x. rewrite (ex_addc sp E). apply (ex_add0 sp E). Qed.

Lemma add_swap : forall a b c, a (+) (b (+) c) = b (+) (a (+) c).
Proof.
  intros a b c. rewrite (ex_adda sp E), (ex_addc sp E a b), <- (ex_adda sp E). reflexivity.
Qed.

Lemma add_four : forall a b c d, (a (+) b) (+) (c (+) d) = (a (+) c) (+) (b (+) d).
Proof.
  intros a b c d. rewrite <- !(ex_adda sp E). f_equal. apply add_swap.
Qed.

Lemma scal_opp_cancel : forall y c u,
  (y (+) xscal sp (kopp sp c) u) (+) xscal sp c u = y.
Proof.
  intros y c u. rewrite <- (ex_adda sp E), <- (ex_scala sp E).
  replace (kopp sp c [+] c) with (k0 sp) by ring.
  rewrite (ex_scal0 sp E). apply (ex_add0 sp E).
Qed.

Lemma deflate_lincomb : forall us cs y,
  deflate sp us cs y (+) lincomb us cs = y.
Proof.
  induction us as [|u us IH]; intros [|c cs] y; cbn [deflate SpecOrtho.lincomb];
    try apply (ex_add0 sp E).
  rewrite (ex_addc sp E (xscal sp c u)), (ex_adda sp E), IH. apply scal_opp_cancel.
Qed.

Lemma deflate_app : forall us1 cs1 us2 cs2 y, length us1 = length cs1 ->
  deflate sp us2 cs2 (deflate sp us1 cs1 y) = deflate sp (us1 ++ us2) (cs1 ++ cs2) y.
Proof.
  induction us1 as [|u us IH]; intros [|c cs] us2 cs2 y H; try discriminate; auto.
  cbn [app deflate]. apply IH. cbn in H. lia.
Qed.

Lemma lincomb_app : forall us1 cs1 us2 cs2, length us1 = length cs1 ->
  lincomb (us1 ++ us2) (cs1 ++ cs2) = lincomb us1 cs1 (+) lincomb us2 cs2.
Proof.
  induction us1 as [|u us IH]; intros [|c cs] us2 cs2 H; try discriminate.
  - cbn. symmetry. apply x0_add.
  - cbn [app SpecOrtho.lincomb]. rewrite IH by (cbn in H; lia). apply (ex_adda sp E).
Qed.

Lemma bip_lincomb_zero : forall u us cs,
  (forall w, In w us -> bip u w = k0 sp) -> bip u (lincomb us cs) = k0 sp.
Proof.
  intros u. induction us as [|w us IH]; intros [|c cs] H; cbn [SpecOrtho.lincomb];
    try apply bip_x0.
  rewrite (ex_ipa sp E), (ex_ips sp E), IH, H; [ring|left; auto|intros; apply H; right; auto].
Qed.

Lemma bip_lincomb_one : forall u us cs j c,
  (forall k w, nth_error us k = Some w -> bip u w = if k =? j then k1 sp else k0 sp) ->
  j < length us -> nth_error cs j = Some c -> bip u (lincomb us cs) = c.
Proof.
  intros u. induction us as [|w us IH]; intros cs j c H Hj Hc; [cbn in Hj; lia|].
  destruct cs as [|d cs]; [destruct j; discriminate|].
  cbn [SpecOrtho.lincomb]. rewrite (ex_ipa sp E), (ex_ips sp E).
  destruct j as [|j].
  - cbn in Hc. inversion Hc; subst.
    rewrite (H 0 w eq_refl). cbn [Nat.eqb].
    rewrite bip_lincomb_zero; [ring|].
    intros w' Hw. apply In_nth_error in Hw. destruct Hw as [k Hk].
    rewrite (H (S k) w' Hk). reflexivity.
  - rewrite (H 0 w eq_refl). cbn [Nat.eqb].
    rewrite (IH cs j c); [ring| |cbn in Hj; lia|exact Hc].
    intros k w' Hk. rewrite (H (S k) w' Hk). reflexivity.
Qed.

Lemma deflate_orth : forall us y u, orthonormal sp us -> In u us ->
  bip u (deflate sp us (map (fun w => bip w y) us) y) = k0 sp.
Proof.
  intros us y u Ho Hu. apply In_nth_error in Hu. destruct Hu as [j Hj].
  set (w := deflate sp us (map (fun w => bip w y) us) y).
  assert (H : bip u y = bip u w [+] bip u y).
  { rewrite <- (deflate_lincomb us (map (fun w => bip w y) us) y) at 1.
    rewrite (ex_ipa sp E). fold w. f_equal.
    apply (bip_lincomb_one u us _ j).
    - intros k z Hk. rewrite (Ho j k u z Hj Hk). rewrite Nat.eqb_sym. reflexivity.
    - apply nth_error_Some. congruence.
    - rewrite nth_error_map, Hj. reflexivity. }
  replace (bip u w) with ((bip u w [+] bip u y) [+] kopp sp (bip u y)) by ring.
  rewrite <- H. ring.
Qed.

(** A vector already orthogonal is left as it is. *)
Lemma deflate_zero : forall us cs y, (forall c, In c cs -> c = k0 sp) ->
  deflate sp us cs y = y.
Proof.
  induction us as [|u us IH]; intros [|c cs] y H; auto. cbn [deflate].
  rewrite (H c) by (left; auto).
  replace (kopp sp (k0 sp)) with (k0 sp) by ring.
  rewrite (ex_scal0 sp E), (ex_add0 sp E). apply IH. intros; apply H; right; auto.
Qed.

Lemma unit_norm : forall w, norm sp w <> k0 sp ->
  bip (xscal sp (kinv sp (norm sp w)) w) (xscal sp (kinv sp (norm sp w)) w) = k1 sp.
Proof.
  intros w Hs. set (s := norm sp w) in *. set (c := kinv sp s).
  assert (Hc : s [*] c = k1 sp) by apply (ex_inv sp E s Hs).
  rewrite (ex_ips sp E), (ex_herm sp E w), (ex_ips sp E), (ex_conjm sp E).
  rewrite <- (ex_norm sp E w). fold s. rewrite (ex_conjm sp E).
  assert (Hr : kconj sp s = s) by apply (ex_real sp E w).
  assert (Hcc : kconj sp c [*] s = k1 sp).
  { rewrite <- Hr, <- (ex_conjm sp E).
    replace (c [*] s) with (s [*] c) by ring. rewrite Hc. apply (ex_conj1 sp E). }
  rewrite Hr.
  transitivity ((s [*] c) [*] (kconj sp c [*] s)); [ring|].
  rewrite Hc, Hcc. ring.
Qed.

Lemma unscale : forall s w, s <> k0 sp -> xscal sp s (xscal sp (kinv sp s) w) = w.
Proof.
  intros s w H. rewrite <- (ex_scalm sp E), (ex_inv sp E s H). apply (ex_scal1 sp E).
Qed.

Lemma lincomb_addto : forall us d o, length us <= length d -> length us <= length o ->
  lincomb us (addto sp d o) = lincomb us d (+) lincomb us o.
Proof.
  induction us as [|u us IH]; intros [|x d] [|y o] H1 H2; cbn [length] in *; try lia;
    cbn [addto SpecOrtho.lincomb]; try (symmetry; apply (ex_add0 sp E)).
  rewrite IH by lia. rewrite (ex_scala sp E). apply add_four.
Qed.

Lemma lincomb_upd_beyond : forall us cs i x, length us <= i ->
  lincomb us (upd cs i x) = lincomb us cs.
Proof.
  induction us as [|u us IH]; intros [|c cs] i x H; cbn [length] in *; auto.
  destruct i as [|i]; [lia|]. cbn [upd SpecOrtho.lincomb]. rewrite IH by lia. reflexivity.
Qed.

Lemma lincomb_zero : forall us cs, (forall c, In c cs -> c = k0 sp) ->
  lincomb us cs = x0 sp.
Proof.
  induction us as [|u us IH]; intros [|c cs] H; auto. cbn [SpecOrtho.lincomb].
  rewrite (H c) by (left; auto). rewrite IH by (intros; apply H; right; auto).
  rewrite (ex_scal0 sp E). apply (ex_add0 sp E).
Qed.

Lemma lincomb_split : forall us cs w rest c,
  nth_error cs (length us) = Some c ->
  (forall k d, length us < k -> nth_error cs k = Some d -> d = k0 sp) ->
  lincomb (us ++ w :: rest) cs = lincomb us cs (+) xscal sp c w.
Proof.
  induction us as [|u us IH]; intros [|c0 cs] w rest c Hc Hz; cbn [length] in *;
    try discriminate.
  - cbn in Hc. inversion Hc; subst. cbn [app SpecOrtho.lincomb].
    rewrite lincomb_zero. { rewrite x0_add. apply (ex_add0 sp E). }
    intros d Hd. apply In_nth_error in Hd. destruct Hd as [k Hk].
    apply (Hz (S k) d); [lia|exact Hk].
  - cbn [app SpecOrtho.lincomb]. rewrite (IH cs w rest c).
    + apply (ex_adda sp E).
    + exact Hc.
    + intros k d Hk Hd. apply (Hz (S k) d); [lia|exact Hd].
Qed.

Lemma nth_addto_beyond : forall d o k, length o <= k ->
  nth_error (addto sp d o) k = nth_error d k.
Proof.
  induction d as [|x d IH]; intros [|y o] [|k] H; cbn [length] in *; auto; try lia.
  cbn [addto nth_error]. apply IH. lia.
Qed.

(* ---------------- one vector ---------------- *)
Section Vector.
Variable hasprimme hasR hasRL : bool.
Variable rnd : nat -> X sp.
Variable prev locked : list (X sp).
Hypothesis Horth : orthonormal sp (locked ++ prev).
Notation turn := (turn sp hasprimme hasR hasRL rnd (length prev) prev locked).
Notation opass' := (orth_pass sp hasprimme hasR hasRL (length prev) prev locked).

Definition bx_ok (st : vst sp) : Prop :=
  bxup _ st = true -> forall f, bapp sp = Some f -> bx _ st = f (v _ st).

Definition good (z : vst sp) : Prop :=
  (forall u, In u (locked ++ prev) -> bip u (v _ z) = k0 sp) /\ bip (v _ z) (v _ z) = k1 sp.

(** The state after a pass: w is the deflated vector. *)
Lemma pass_form : forall st s, bx_ok st ->
  (opass' st = Go _ s \/ opass' st = Take _ s) ->
  let w := deflate sp (locked ++ prev) (map (fun u => bip u (v _ st)) (locked ++ prev)) (v _ st) in
  let c := if updR _ st && hasR then addto sp (col _ st) (map (fun u => bip u (v _ st)) prev)
           else col _ st in
  colL _ s = (if updR _ st && hasRL then addto sp (colL _ st) (map (fun u => bip u (v _ st)) locked)
           else colL _ st) /\
  updR _ s = updR _ st /\
  ((opass' st = Go _ s /\ v _ s = w /\ bx_ok s /\
    (col _ s = c \/ (updR _ st && hasR = true /\ col _ s = upd c (length prev) (norm sp w)))) \/
   (opass' st = Take _ s /\ norm sp w <> k0 sp /\ v _ s = xscal sp (kinv sp (norm sp w)) w /\
    col _ s = (if updR _ st && hasR then upd c (length prev) (norm sp w) else c))).
Proof.
  intros st s Hbx H w c. unfold orth_pass in H |- *. cbv zeta in H |- *.
  assert (Hb : (match bapp sp with
     | Some f => if bxup _ st then bx _ st else f (v _ st)
     | None => v _ st end) =
     (match bapp sp with Some f => f (v _ st) | None => v _ st end)).
  { destruct (bapp sp) as [f|] eqn:Ef; auto.
    destruct (bxup _ st) eqn:Eu; auto. }
  rewrite Hb in H |- *. fold (norm sp) in H |- *.
  change (fun u : X sp => ip sp u match bapp sp with Some f => f (v _ st) | None => v _ st end)
    with (fun u : X sp => bip u (v _ st)) in H |- *.
  rewrite deflate_app in H |- * by (rewrite map_length; reflexivity).
  rewrite <- map_app in H |- *. fold w in H |- *. fold c in H |- *.
  change (ksqrt sp (kre sp (ip sp w match bapp sp with Some f => f w | None => w end)))
    with (norm sp w) in H |- *.
  assert (Hup : forall n' c' cL' z nr sd np ur, bx_ok (Vst sp w
     (match bapp sp with Some f => f w | None => w end)
     (match bapp sp with Some _ => true | None => false end) n' nr sd np ur c' cL' z)).
  { intros. unfold bx_ok. cbn. intros _ f Hf. rewrite Hf. reflexivity. }
  repeat match type of H with
         | ((if ?c then _ else _) = _ \/ _) => destruct c eqn:?
         | (Go _ _ = _ \/ _) => destruct H as [H|H]; [|discriminate]
         | (Take _ _ = _ \/ _) => destruct H as [H|H]; [discriminate|]
         end; inversion H; subst s; cbn [col colL updR v];
    (split; [reflexivity|]); (split; [reflexivity|]).
  - left. repeat split; auto.
  - left. repeat split; auto.
  - right. repeat split; auto. apply (ex_fin sp E); auto.
  - left. repeat split; auto. destruct (updR _ st && hasR) eqn:Eu; auto.
Qed.

Lemma bx_freeze : forall st, bx_ok st -> bx_ok (freeze sp hasR (length prev) st).
Proof. intros st H. unfold freeze. destruct (updR _ st); auto. Qed.

Lemma bx_random : forall st, bx_ok (randomise sp rnd st).
Proof. intros st H. discriminate. Qed.

Lemma pass_good : forall st, bx_ok st ->
  match opass' st with Go _ s => bx_ok s | Take _ s => good s | GiveUp _ _ => True end.
Proof.
  intros st Hb.
  destruct (opass' st) as [s|s|s] eqn:Ep; auto.
  - destruct (pass_form st s Hb (or_introl Ep)) as (_ & _ & [(_ & _ & H & _)|(H & _)]); auto.
    congruence.
  - destruct (pass_form st s Hb (or_intror Ep)) as (_ & _ & [(H & _)|(_ & H1 & H2 & _)]).
    + congruence.
    + split.
      * intros u Hu. rewrite H2, (ex_ips sp E), deflate_orth; auto. ring.
      * rewrite H2. apply unit_norm. exact H1.
Qed.

Lemma turn_good : forall st, bx_ok st ->
  match turn st with Go _ s => bx_ok s | Take _ s => good s | GiveUp _ _ => True end.
Proof.
  intros st Hb. unfold OrthoModel.turn.
  destruct (maxNumOrthos hasprimme <=? nOrth _ st); [|apply pass_good; auto].
  destruct (maxNumRandoms <=? nrand _ (freeze sp hasR (length prev) st)); auto.
  apply pass_good. apply bx_random.
Qed.

Lemma loop_good : forall fuel st z, bx_ok st ->
  vec_loop sp hasprimme hasR hasRL rnd fuel (length prev) prev locked st = Some (true, z) ->
  good z.
Proof.
  intros fuel st z Hb H.
  refine (vec_loop_inv sp hasprimme hasR hasRL rnd bx_ok good (fun _ => True)
            (length prev) prev locked turn_good fuel st true z Hb H).
Qed.
End Vector.

(* ---------------- the coefficients of one vector ---------------- *)
Section Coef.
Variable hasprimme : bool.
Variable rnd : nat -> X sp.
Variable prev locked : list (X sp).
Hypothesis Horth : orthonormal sp (locked ++ prev).
Variable xin : X sp.
Notation turn := (turn sp hasprimme true true rnd (length prev) prev locked).
Notation opass' := (orth_pass sp hasprimme true true (length prev) prev locked).
Notation i := (length prev).

Definition zeros_beyond (c : list (K sp)) : Prop :=
  forall k d, i < k -> nth_error c k = Some d -> d = k0 sp.

Definition sizes (st : vst sp) : Prop :=
  i < length (col _ st) /\ length (colL _ st) = length locked.

Definition coef (st : vst sp) : Prop :=
  if updR _ st then xin = v _ st (+) (lincomb prev (col _ st) (+) lincomb locked (colL _ st))
  else nth_error (col _ st) i = Some (k0 sp).

Definition cinv (st : vst sp) : Prop :=
  bx_ok st /\ sizes st /\ zeros_beyond (col _ st) /\ coef st.

Definition cend (z : vst sp) : Prop :=
  sizes z /\ zeros_beyond (col _ z) /\
  (forall d, nth_error (col _ z) i = Some d -> d <> k0 sp ->
   forall rest, xin = lincomb (prev ++ v _ z :: rest) (col _ z) (+) lincomb locked (colL _ z)).

Lemma zeros_addto : forall c o, zeros_beyond c -> length o = i -> zeros_beyond (addto sp c o).
Proof.
  intros c o H Ho k d Hk Hd. rewrite nth_addto_beyond in Hd by lia. eapply H; eauto.
Qed.

Lemma zeros_upd : forall c x, zeros_beyond c -> zeros_beyond (upd c i x).
Proof.
  intros c x H k d Hk Hd. rewrite nth_error_upd_neq in Hd by lia. eapply H; eauto.
Qed.

Lemma pass_coef : forall st, cinv st ->
  match opass' st with Go _ s => cinv s | Take _ s => cend s | GiveUp _ _ => True end.
Proof.
  intros st (Hb & (Hs1 & Hs2) & Hz & Hc).
  set (w := deflate sp (locked ++ prev) (map (fun u => bip u (v _ st)) (locked ++ prev)) (v _ st)).
  assert (Hw : v _ st = w (+) (lincomb prev (map (fun u => bip u (v _ st)) prev) (+)
                               lincomb locked (map (fun u => bip u (v _ st)) locked))).
  { rewrite <- (deflate_lincomb (locked ++ prev)
      (map (fun u => bip u (v _ st)) (locked ++ prev)) (v _ st)) at 1.
    fold w. f_equal. rewrite map_app, lincomb_app by (rewrite map_length; auto).
    apply (ex_addc sp E). }
  assert (Hx : updR _ st = true ->
     xin = w (+) (lincomb prev (addto sp (col _ st) (map (fun u => bip u (v _ st)) prev)) (+)
                  lincomb locked (addto sp (colL _ st) (map (fun u => bip u (v _ st)) locked)))).
  { intros Hu. unfold coef in Hc. rewrite Hu in Hc. rewrite Hc. rewrite Hw at 1.
    rewrite !lincomb_addto by (rewrite ?map_length; lia).
    rewrite <- (ex_adda sp E). f_equal.
    rewrite add_four. f_equal; apply (ex_addc sp E). }
  destruct (opass' st) as [s|s|s] eqn:Ep; auto.
  - destruct (pass_form hasprimme true true prev locked st s Hb (or_introl Ep))
      as (F1 & F2 & [(_ & F3 & F4 & F5)|(F3 & _)]); [|congruence].
    rewrite andb_true_r in F1. fold w in F3, F5.
    assert (Hsz : sizes s).
    { split.
      - destruct F5 as [->|[_ ->]]; rewrite ?length_upd;
          destruct (updR _ st && true); rewrite ?length_addto; auto.
      - rewrite F1. destruct (updR _ st); rewrite ?length_addto; auto. }
    assert (Hzs : zeros_beyond (col _ s)).
    { destruct F5 as [->|[_ ->]]; try apply zeros_upd;
        destruct (updR _ st && true); auto; apply zeros_addto; auto; apply map_length. }
    split; [auto|]. split; [auto|]. split; [auto|].
    unfold coef. rewrite F2. destruct (updR _ st) eqn:Eu.
    + cbn [andb] in F5. rewrite F1, F3.
      destruct F5 as [->|[_ ->]]; rewrite ?lincomb_upd_beyond by lia; auto.
    + cbn [andb] in F5. destruct F5 as [->|[Hf _]]; [|discriminate].
      unfold coef in Hc. rewrite Eu in Hc. exact Hc.
  - destruct (pass_form hasprimme true true prev locked st s Hb (or_intror Ep))
      as (F1 & F2 & [(F3 & _)|(_ & F3 & F4 & F5)]); [congruence|].
    rewrite andb_true_r in F1, F5. fold w in F3, F4, F5.
    assert (Hsz : sizes s).
    { split.
      - rewrite F5. destruct (updR _ st); rewrite ?length_upd, ?length_addto; auto.
      - rewrite F1. destruct (updR _ st); rewrite ?length_addto; auto. }
    assert (Hzs : zeros_beyond (col _ s)).
    { rewrite F5. destruct (updR _ st); auto. apply zeros_upd.
      apply zeros_addto; auto; apply map_length. }
    split; [auto|]. split; [auto|].
    intros d Hd Hne rest. destruct (updR _ st) eqn:Eu.
    + assert (d = norm sp w).
      { rewrite F5, nth_error_upd_eq in Hd; [congruence|]. rewrite length_addto. auto. }
      subst d.
      rewrite (lincomb_split prev (col _ s) (v _ s) rest (norm sp w)); auto.
      rewrite F4, unscale by auto. rewrite F5, lincomb_upd_beyond, F1 by lia.
      rewrite (Hx eq_refl) at 1.
      rewrite (ex_addc sp E _ w). apply (ex_adda sp E).
    + exfalso. unfold coef in Hc. rewrite Eu in Hc. rewrite F5 in Hd. congruence.
Qed.

Lemma freeze_coef : forall st, cinv st ->
  sizes (freeze sp true i st) /\ zeros_beyond (col _ (freeze sp true i st)) /\
  nth_error (col _ (freeze sp true i st)) i = Some (k0 sp).
Proof.
  intros st (Hb & (Hs1 & Hs2) & Hz & Hc). unfold freeze, coef, sizes in *.
  destruct (updR _ st) eqn:Eu; cbn [col colL].
  - rewrite length_upd. split; [auto|]. split; [apply zeros_upd; auto|].
    apply nth_error_upd_eq. auto.
  - auto.
Qed.

Lemma turn_coef : forall st, cinv st ->
  match turn st with Go _ s => cinv s | Take _ s | GiveUp _ s => cend s end.
Proof.
  intros st Hi. unfold OrthoModel.turn.
  destruct (maxNumOrthos hasprimme <=? nOrth _ st).
  - destruct (freeze_coef st Hi) as (F1 & F2 & F3).
    destruct (maxNumRandoms <=? nrand _ (freeze sp true i st)).
    + split; [auto|]. split; [auto|]. intros d Hd Hne. congruence.
    + pose proof (pass_coef (randomise sp rnd (freeze sp true i st))) as P.
      assert (Hr : cinv (randomise sp rnd (freeze sp true i st))).
      { split; [apply bx_random|]. split; [exact F1|]. split; [exact F2|].
        unfold coef. cbn [randomise updR].
        assert (updR _ (freeze sp true i st) = false) as ->.
        { unfold freeze. destruct (updR _ st) eqn:Eu; auto. }
        exact F3. }
      specialize (P Hr). destruct orth_pass as [s|s|s] eqn:Ep; auto.
      exfalso. eapply pass_no_giveup; eauto.
  - pose proof (pass_coef st Hi) as P. destruct orth_pass as [s|s|s] eqn:Ep; auto.
    exfalso. eapply pass_no_giveup; eauto.
Qed.

Lemma loop_coef : forall fuel st ok z, cinv st ->
  vec_loop sp hasprimme true true rnd fuel i prev locked st = Some (ok, z) -> cend z.
Proof.
  intros fuel st ok z Hi H.
  pose proof (vec_loop_inv sp hasprimme true true rnd cinv cend cend i prev locked) as L.
  assert (Hs : forall st, cinv st -> match turn st with
      Go _ s => cinv s | Take _ s => cend s | GiveUp _ s => cend s end).
  { intros s Hs. pose proof (turn_coef s Hs) as T. destruct turn; auto. }
  specialize (L Hs fuel st ok z Hi H). destruct ok; auto.
Qed.
End Coef.
End Exact.
