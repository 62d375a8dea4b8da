(** C22: the block inner solver drops finished systems without mixing the rest. *)
From Coq Require Import List Arith Lia Bool Permutation.
From Verif Require Import Base PermModel PermProofs InnerModel InnerProofs.
Import ListNotations.

Lemma phase_full : forall nx n fin s, aligned n s -> length fin = bs s ->
  exists s', phase nx fin s = Some s' /\
    bs s' + ntrue fin = bs s /\ is_perm (sys s') n /\
    (forall k x, k < bs s -> nth_error (sys s) k = Some x ->
       exists j, nth_error (sys s') j = Some x /\ j < bs s /\
         (nth_error fin k = Some true -> bs s' <= j) /\
         (nth_error fin k = Some false -> j < bs s')) /\
    (forall j, bs s <= j -> nth_error (sys s') j = nth_error (sys s) j) /\
    (forall a, In a (moved s') -> a = sys s').
Proof.
  intros nx n fin s Ha Hf.
  destruct (phase_spec nx n fin s Ha Hf) as (s' & p0 & P1 & P2 & P3 & P4 & P5 & P6 & P7 & P8 & P9).
  destruct Ha as [A1 A2 A3 A4]. destruct P3 as [B1 B2 B3 B4].
  pose proof (is_perm_length _ _ A2) as Hl.
  exists s'. split; [exact P1|].
  split; [pose proof (ntrue_le fin); lia|]. split; [exact B2|]. split; [|split].
  - intros k x Hk Hx.
    assert (In k p0). { eapply Permutation_in; [symmetry; exact P2|]. apply in_seq. lia. }
    apply In_nth_error in H. destruct H as [j Hj].
    exists j. split; [rewrite P5; erewrite rearr_nth; eauto; lia|].
    split. { rewrite <- (is_perm_length _ _ P2). apply nth_error_Some. congruence. }
    specialize (P9 j k Hj). split; [tauto|].
    intros Hff. destruct (Nat.lt_ge_cases j (bs s')) as [|Hge]; auto.
    apply P9 in Hge. congruence.
  - intros j Hj. rewrite P5. apply rearr_beyond; auto. lia.
  - exact B3.
Qed.

(** Any number of phases from the start: every system is present exactly once,
    every moved array is aligned, and the block only shrinks. *)
Theorem C22_history : forall nx n arrays h s,
  phases nx h (inner_start n arrays) = Some s ->
  is_perm (sys s) n /\ bs s <= n /\ (forall a, In a (moved s) -> a = sys s).
Proof.
  intros nx n arrays h s H.
  destruct (phases_aligned nx n h _ s (start_aligned n arrays) H) as [A1 A2 A3 A4]. auto.
Qed.

(** One phase.  Whatever systems finish: the routine succeeds, the finished
    systems are behind the new block and the others in it, systems that finished
    before do not move, and every moved array holds the column of the same system
    at every position. *)
Theorem C22_phase : forall nx n arrays h s fin,
  phases nx h (inner_start n arrays) = Some s -> length fin = bs s ->
  exists s', phase nx fin s = Some s' /\
    bs s' + ntrue fin = bs s /\ is_perm (sys s') n /\
    (forall k x, k < bs s -> nth_error (sys s) k = Some x ->
       exists j, nth_error (sys s') j = Some x /\ j < bs s /\
         (nth_error fin k = Some true -> bs s' <= j) /\
         (nth_error fin k = Some false -> j < bs s')) /\
    (forall j, bs s <= j -> nth_error (sys s') j = nth_error (sys s) j) /\
    (forall a, In a (moved s') -> a = sys s').
Proof.
  intros nx n arrays h s fin H Hf. apply phase_full; auto.
  eapply phases_aligned; [apply start_aligned|exact H].
Qed.

(** ... and such histories never fail. *)
Theorem C22_runs : forall nx n fin h arrays s,
  phases nx h (inner_start n arrays) = Some s -> length fin = bs s ->
  exists s', phases nx (h ++ [fin]) (inner_start n arrays) = Some s' /\
             bs s' + ntrue fin = bs s.
Proof.
  intros nx n fin h arrays s H Hf.
  assert (L : forall h s0, phases nx h s0 = Some s -> phases nx (h ++ [fin]) s0 = phases nx [fin] s).
  { clear H. induction h0 as [|f h0 IH]; intros s0 H; cbn [phases app] in *.
    - inversion H; subst. reflexivity.
    - destruct (length f =? bs s0); [|discriminate].
      destruct (phase nx f s0) as [s1|]; [|discriminate]. cbn [bind] in *. apply IH. auto. }
  rewrite (L h _ H).
  pose proof (phases_aligned nx n h _ s (start_aligned n arrays) H) as Ha.
  destruct (phase_full nx n fin s Ha Hf) as (s' & P1 & P2 & _).
  exists s'. cbn [phases]. rewrite (proj2 (Nat.eqb_eq _ _) Hf), P1. cbn [bind]. auto.
Qed.

(** The approximate eigenvectors x stay aligned if no projector is x itself ... *)
Theorem C22_x_partial : forall n arrays leftQ leftX rightX skew hasB h s,
  (leftX = false \/ (leftQ = true /\ n <= 1)) -> (rightX = false \/ skew = true \/ hasB = true) ->
  phases (x_moves leftQ leftX rightX skew hasB n) h (inner_start n arrays) = Some s ->
  xcol s = sys s.
Proof.
  intros n arrays leftQ leftX rightX skew hasB h s H1 H2 H.
  assert (Hm : x_moves leftQ leftX rightX skew hasB n = 1).
  { unfold x_moves.
    assert (Hl : leftX && (negb leftQ || (1 <? n)) = false).
    { destruct H1 as [H1|[H1 Hn]]; rewrite H1; [reflexivity|].
      replace (1 <? n) with false by (symmetry; apply Nat.ltb_ge; lia).
      apply andb_false_r. }
    assert (Hr : rightX && negb skew && negb hasB = false).
    { destruct H2 as [H2|[H2|H2]]; rewrite H2;
        [reflexivity|rewrite andb_false_r; reflexivity|apply andb_false_r]. }
    rewrite Hl, Hr. reflexivity. }
  rewrite Hm in H. clear Hm H1 H2.
  assert (L : forall h s0, aligned n s0 -> xcol s0 = sys s0 -> phases 1 h s0 = Some s -> xcol s = sys s).
  { clear. induction h as [|fin h IH]; intros s0 Ha Hx H; cbn [phases] in H.
    - inversion H; subst. auto.
    - destruct (Nat.eqb_spec (length fin) (bs s0)) as [Hf|]; [|discriminate].
      destruct (phase_spec 1 n fin s0 Ha Hf) as (s1 & p0 & P1 & P2 & P3 & P4 & P5 & P6 & P7 & _).
      rewrite P1 in H. cbn [bind] in H. eapply IH; eauto. }
  eapply L; [apply start_aligned|reflexivity|exact H].
Qed.

(** ... and do not otherwise: with the left projector on x (the same array) two
    systems, the first of which finishes, are enough. *)
Theorem C22_x_refuted : exists h s,
  phases (x_moves true true false false false 2) h (inner_start 2 7) = Some s /\
  0 < bs s /\ nth_error (xcol s) 0 <> nth_error (sys s) 0.
Proof.
  exists [[true; false]].
  exists (Inner 1 [1; 0] (repeat [1; 0] 7) [0; 1] [0; 1]).
  split; [vm_compute; reflexivity|]. split; [cbn; lia|]. cbn. discriminate.
Qed.

(** B*x is not moved at all: with a B the projector's two halves belong to
    different systems. *)
Theorem C22_Bx_refuted : exists h s,
  phases (x_moves true false true false true 2) h (inner_start 2 7) = Some s /\
  0 < bs s /\ nth_error (bxcol s) 0 <> nth_error (sys s) 0.
Proof.
  exists [[true; false]].
  exists (Inner 1 [1; 0] (repeat [1; 0] 7) [1; 0] [0; 1]).
  split; [vm_compute; reflexivity|]. split; [cbn; lia|]. cbn. discriminate.
Qed.

(** The scalars sigma, Theta and rho of an iteration are written by position and
    read by system.  A system is given its own value of this iteration exactly if
    it is still at its first position. *)
Lemma dots_spec : forall k i it sysl a a', dots k i it sysl a = Some a' ->
  length a' = length a /\
  (forall j, i <= j < i + k -> exists x, nth_error sysl j = Some x /\ nth_error a' j = Some (x, it)) /\
  (forall j, j < i \/ i + k <= j -> nth_error a' j = nth_error a j).
Proof.
  induction k as [|k IH]; intros i it sysl a a' H; cbn [dots] in H.
  - inversion H; subst. repeat split; auto; intros; lia.
  - unfold get in H. destruct (nth_error sysl i) as [x|] eqn:Ex; [|discriminate].
    cbn [bind] in H. unfold put in H. destruct (i <? length a) eqn:El; [|discriminate].
    apply Nat.ltb_lt in El. cbn [bind] in H.
    destruct (IH (S i) it sysl _ a' H) as (H1 & H2 & H3). rewrite length_upd in H1.
    split; [exact H1|]. split.
    + intros j Hj. destruct (Nat.eq_dec j i) as [->|N].
      * exists x. split; auto. rewrite H3 by lia. apply nth_error_upd_eq. auto.
      * apply H2. lia.
    + intros j Hj. rewrite H3 by lia. apply nth_error_upd_neq. lia.
Qed.

Lemma phase_forward : forall nx n fin s s', aligned n s -> length fin = bs s ->
  forward s -> phase nx fin s = Some s' -> forward s'.
Proof.
  intros nx n fin s s' Ha Hf Hfw H.
  destruct (phase_spec nx n fin s Ha Hf) as (s1 & p0 & P1 & P2 & P3 & P4 & P5 & _ & _ & _ & P9).
  rewrite P1 in H. inversion H; subst s1.
  pose proof (is_perm_length _ _ (al_perm n s Ha)) as Hl.
  pose proof (al_bs n s Ha) as Hb.
  (* a position keeps its entry or receives one from behind the new block *)
  assert (Hp0 : forall all rest pre p n conv p1 c,
    all = pre ++ rest -> length all = n -> conv = ntrue pre -> is_perm p n ->
    (forall j k, nth_error p j = Some k ->
       (n - conv <= j <-> (k < length pre /\ nth_error all k = Some true))) ->
    (forall j k, j < n - conv -> nth_error p j = Some k -> k = j \/ n - conv <= k) ->
    mark rest (length pre) conv n p = Some (p1, c) ->
    c = ntrue all /\ forall j k, j < n - c -> nth_error p1 j = Some k -> k = j \/ n - c <= k).
  { clear. intros all. induction rest as [|b rest IH]; intros pre p n conv p1 c Ha Hn Hc Hp Hinv Hq Hm.
    - cbn [mark] in Hm. injection Hm as <- <-. rewrite app_nil_r in Ha.
      split; [rewrite Ha; exact Hc|exact Hq].
    - assert (Hi : nth_error all (length pre) = Some b).
      { rewrite Ha, nth_error_app2, Nat.sub_diag by lia. reflexivity. }
      assert (Hpre : length pre < n).
      { rewrite <- Hn. apply nth_error_Some. congruence. }
      assert (Ha' : all = (pre ++ [b]) ++ rest) by (rewrite <- app_assoc; exact Ha).
      assert (Hl' : length (pre ++ [b]) = S (length pre)) by (rewrite app_length; cbn; lia).
      pose proof (ntrue_le pre) as Hle.
      destruct b; cbn [mark] in Hm.
      + assert (Hpos : n - S conv < n) by lia.
        destruct (perm_set_ok p n (length pre) (n - S conv) Hp Hpre Hpos) as (q & y & H1 & H2 & H3).
        rewrite H3 in Hm. cbn [bind] in Hm. rewrite <- Hl' in Hm.
        pose proof (is_perm_length _ _ Hp) as Hlp.
        assert (Hql : q < length p) by (apply nth_error_Some; congruence).
        assert (Hqq : ~ (n - conv <= q)).
        { intros Hge. apply (Hinv q (length pre)) in Hge; auto. lia. }
        apply (IH (pre ++ [true]) (upd (upd p q y) (n - S conv) (length pre)) n (S conv) p1 c); auto.
        * subst conv. unfold ntrue. rewrite filter_app, app_length. cbn. lia.
        * eapply (upd_upd_perm p q (n - S conv) (length pre) y n); eauto.
        * intros j k Hk. rewrite Hl'.
          destruct (Nat.eq_dec j (n - S conv)) as [->|N].
          -- rewrite nth_error_upd_eq in Hk by (rewrite length_upd; lia).
             inversion Hk; subst k. split; [intros _; split; [lia|exact Hi]|lia].
          -- rewrite nth_error_upd_neq in Hk by auto.
             destruct (Nat.eq_dec j q) as [->|N2].
             ++ rewrite nth_error_upd_eq in Hk by auto. inversion Hk; subst k.
                split; [lia|]. intros [G1 G2]. exfalso.
                destruct (Nat.eq_dec y (length pre)) as [->|Ny].
                ** assert (n - S conv = q) by (eapply is_perm_inj; eauto). lia.
                ** assert (n - conv <= n - S conv) by (apply (Hinv _ y H2); split; [lia|auto]). lia.
             ++ rewrite nth_error_upd_neq in Hk by auto. split.
                ** intros Hge. assert (n - conv <= j) by lia.
                   apply (Hinv j k Hk) in H. destruct H. split; [lia|auto].
                ** intros [G1 G2].
                   destruct (Nat.eq_dec k (length pre)) as [->|Nk].
                   --- exfalso. apply N2. eapply is_perm_inj; eauto.
                   --- assert (n - conv <= j) by (apply (Hinv j k Hk); split; [lia|auto]). lia.
        * intros j k Hj Hk. rewrite nth_error_upd_neq in Hk by lia.
          destruct (Nat.eq_dec j q) as [->|N2].
          -- rewrite nth_error_upd_eq in Hk by auto. inversion Hk; subst k.
             right. destruct (Hq (n - S conv) y ltac:(lia) H2) as [->|]; lia.
          -- rewrite nth_error_upd_neq in Hk by auto.
             destruct (Hq j k ltac:(lia) Hk) as [->|Hge]; auto. right. lia.
      + rewrite <- Hl' in Hm. apply (IH (pre ++ [false]) p n conv p1 c); auto.
        * subst conv. unfold ntrue. rewrite filter_app, app_length. cbn. lia.
        * intros j k Hk. rewrite Hl'. rewrite (Hinv j k Hk). split.
          -- intros [G1 G2]. split; [lia|auto].
          -- intros [G1 G2]. split; [|auto].
             destruct (Nat.eq_dec k (length pre)) as [->|Nk]; [congruence|lia]. }
  unfold phase in P1.
  destruct (mark fin 0 0 (bs s) (seq 0 (bs s))) as [[p1 c]|] eqn:Em; [|discriminate].
  destruct (Hp0 fin fin [] (seq 0 (bs s)) (bs s) 0 p1 c) as (Hc & Hkeep); auto.
  { apply Permutation_refl. }
  { intros j k Hk. cbn [length]. rewrite Nat.sub_0_r. split; [|lia].
    intros Hj. exfalso. assert (j < length (seq 0 (bs s))) by (apply nth_error_Some; congruence).
    rewrite seq_length in H0. lia. }
  { intros j k Hj Hk. left. rewrite Nat.sub_0_r in Hj.
    rewrite (nth_error_nth' _ 0) in Hk by (rewrite seq_length; auto).
    rewrite seq_nth in Hk by auto. inversion Hk. auto. }
  cbn [bind] in P1.
  destruct (mark_spec fin) as (p2 & M1 & M2 & M3). rewrite Hf in M1, M2. rewrite Em in M1.
  inversion M1; subst p2 c. 
  rewrite (permute_rearr (sys s)) in P1 by (auto; lia). cbn [bind] in P1.
  assert (Hsys : sys s' = rearr (bs s) p1 (sys s)).
  { destruct (permute_all (moved s) (bs s) p1); [|discriminate]. cbn [bind] in P1.
    destruct (permute_times nx (xcol s) (bs s) p1); [|discriminate]. cbn [bind] in P1.
    inversion P1. reflexivity. }
  intros i x Hi Hx. rewrite P4 in Hi |- *.
  assert (Hil : i < length p1) by (rewrite (is_perm_length _ _ M2); lia).
  destruct (nth_error p1 i) as [k|] eqn:Ek; [|apply nth_error_None in Ek; lia].
  rewrite Hsys, (rearr_nth (sys s) (bs s) p1 i k M2 ltac:(lia) Ek) in Hx.
  assert (Hkb : k < bs s) by (eapply is_perm_in; eauto; eapply nth_error_In; eauto).
  destruct (Hkeep i k Hi Ek) as [->|Hge]; destruct (Hfw _ x Hkb Hx) as [->|Hx']; lia.
Qed.

Theorem C22_scalars_partial : forall nx n arrays h s it a a' i x,
  phases nx h (inner_start n arrays) = Some s -> length a = n ->
  dots (bs s) 0 it (sys s) a = Some a' ->
  i < bs s -> nth_error (sys s) i = Some x ->
  (x = i -> read_scalar s a' i = Some (x, it)) /\
  (x <> i -> read_scalar s a' i = nth_error a x /\ bs s <= x).
Proof.
  intros nx n arrays h s it a a' i x H Ha Hd Hi Hx.
  assert (Hfw : forward s).
  { assert (L : forall h s0, aligned n s0 -> forward s0 -> phases nx h s0 = Some s -> forward s).
    { clear. induction h as [|fin h IH]; intros s0 Hal Hf H; cbn [phases] in H.
      - inversion H; subst. auto.
      - destruct (Nat.eqb_spec (length fin) (bs s0)) as [Hl|]; [|discriminate].
        destruct (phase nx fin s0) as [s1|] eqn:E1; [|discriminate]. cbn [bind] in H.
        destruct (phase_spec nx n fin s0 Hal Hl) as (s2 & p0 & P1 & P2 & P3 & _).
        rewrite P1 in E1. inversion E1; subst s2.
        apply (IH s1 P3); [|exact H]. exact (phase_forward nx n fin s0 s1 Hal Hl Hf P1). }
    eapply L; [apply start_aligned| |exact H].
    intros j y Hj Hy. cbn [sys bs inner_start] in *. left.
    rewrite (nth_error_nth' _ 0) in Hy by (rewrite seq_length; auto).
    rewrite seq_nth in Hy by auto. inversion Hy. auto. }
  destruct (dots_spec _ _ _ _ _ _ Hd) as (D1 & D2 & D3).
  unfold read_scalar, get. rewrite Hx. cbn [bind].
  destruct (Hfw i x Hi Hx) as [->|Hge].
  - split; [|tauto]. intros _. destruct (D2 i ltac:(lia)) as (y & Y1 & Y2). congruence.
  - split; [intros ->; lia|]. intros _. split; [apply D3; lia|exact Hge].
Qed.

(** A moved system reads a value of an earlier iteration. *)
Theorem C22_scalars_refuted : exists h s a a' x,
  phases 1 h (inner_start 2 7) = Some s /\
  (* iteration 0, before anything finished *)
  dots 2 0 0 (seq 0 2) [(9, 9); (9, 9)] = Some a /\
  (* iteration 1, after system 0 finished *)
  dots (bs s) 0 1 (sys s) a = Some a' /\ 0 < bs s /\
  nth_error (sys s) 0 = Some x /\ read_scalar s a' 0 <> Some (x, 1).
Proof.
  exists [[true; false]], (Inner 1 [1; 0] (repeat [1; 0] 7) [1; 0] [0; 1]),
    [(0, 0); (1, 0)], [(1, 1); (1, 0)], 1.
  repeat split; try (vm_compute; reflexivity). cbn. discriminate.
Qed.

Example C22_example :
  exists s, phases 1 [[false; true; false; true]; [true; false]] (inner_start 4 1) = Some s /\
    sys s = [2; 0; 3; 1] /\ bs s = 1 /\ moved s = [[2; 0; 3; 1]].
Proof. eexists. split; [vm_compute; reflexivity|]. repeat split. Qed.

Print Assumptions C22_phase.
Print Assumptions C22_history.
Print Assumptions C22_runs.
Print Assumptions C22_x_partial.
Print Assumptions C22_x_refuted.
Print Assumptions C22_Bx_refuted.
Print Assumptions C22_scalars_partial.
Print Assumptions C22_scalars_refuted.
