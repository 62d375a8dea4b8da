(** C61: the monitor is told every event once, with the documented arguments. *)
From Verif Require Import Base Values PermModel PermProofs SelectModel SelectProofs PropsSelect
  RitzModel LockModel LockProofs MonitorModel SpecMonitor.
From Coq Require Import List Arith ZArith Bool Lia Sorted Permutation.
Import ListNotations.

Section C61.
Context {R : Type}.
Variable same : bool.
Variable conv : R -> R.
Variable nonneg : R -> bool.
Variable minus_one zero : R.
Hypothesis neg : nonneg minus_one = false.

(** The numbers are converted if the types differ. *)
Definition look (x : R) : R := if same then x else conv x.
Notation shows := (shows look).

Lemma astype_shows : forall l n, shows (astype same conv (Some l) n) n l.
Proof.
  intros l n j x Hj E. unfold astype, cell, look. destruct same.
  - eexists. split; [reflexivity|]. rewrite nth_error_map, E. reflexivity.
  - destruct (Z.leb_spec n 0); [lia|]. eexists. split; [reflexivity|].
    rewrite nth_error_map, LockProofs.nth_error_firstn.
    destruct (Nat.ltb_spec j (Z.to_nat n)); [rewrite E; reflexivity|lia].
Qed.

(** Whatever the types, each kind of call has the arguments the manual lists. *)
Theorem C61_outer_arguments : forall hVals size flags iev bs norms nconv evals nl lflags rnorms,
  outer_documented look
    (outer_call same conv nonneg minus_one hVals size flags iev bs norms nconv evals nl lflags rnorms)
    hVals norms evals rnorms flags lflags iev size bs nl.
Proof.
  intros. unfold outer_documented, outer_call, monitorFun, no_linear_system.
  cbn [r_event r_evals r_norms r_size r_flags r_iblock r_bsize r_levals r_lnorms r_nlocked r_lflags r_inner r_LSRes].
  rewrite neg. repeat split; try apply astype_shows; reflexivity.
Qed.

Theorem C61_inner_arguments : forall adaptive eval norm its tau,
  nonneg tau = true ->
  inner_documented look (inner_call same conv nonneg adaptive eval norm its tau) eval norm tau its.
Proof.
  intros adaptive eval norm its tau H. unfold inner_documented, inner_call, monitorFun.
  cbv zeta. cbn [r_event r_evals r_norms r_inner r_LSRes]. rewrite H.
  replace (0 <=? Z.of_nat its)%Z with true by (symmetry; apply Z.leb_le; lia).
  repeat split; apply astype_shows with (l := [_]); try reflexivity; lia.
Qed.

Lemma converged_arguments : forall hVals size flags p iev norms nconv,
  converged_documented look
    (converged_call same conv nonneg minus_one hVals size flags (p :: iev) norms nconv) hVals norms flags size p /\
  r_nconv (converged_call same conv nonneg minus_one hVals size flags (p :: iev) norms nconv) = nconv.
Proof.
  intros. unfold converged_documented, converged_call, monitorFun, no_linear_system.
  cbn [r_event r_evals r_norms r_size r_flags r_iblock r_bsize r_inner r_LSRes r_nconv].
  rewrite neg. repeat split; try apply astype_shows; eauto.
Qed.

(* ------------------------------------------------------------------ *)
Section Select.
Context {X : Type}.
Variable q : sel_in.
Variable verdict : nat -> nat -> flag -> R -> flag * R.
Variable resid : nat -> nat -> R.
Variable vec : nat -> X.
Variable side : nat -> nat -> bool.
Variable floor : R -> R.
Variable hVals : list R.
Notation innerR := (inner_r same conv nonneg minus_one q side hVals).
Notation roundsR := (rounds_r same conv nonneg minus_one q verdict resid vec side floor hVals).
Notation prepareR := (prepare_candidates_r same conv nonneg minus_one q verdict resid vec side floor hVals).

(** Reporting does not change what is chosen. *)
Lemma inner_r_inner : forall r fb blki (s : @sel R X) tr,
  option_map (@fst _ _) (innerR r fb blki s tr) = inner q side r fb blki s.
Proof.
  induction fb as [|f fs IH]; intros blki s tr; cbn [inner_r inner]; [reflexivity|].
  destruct (_ <? _)%Z; [|reflexivity].
  destruct (get (s_iev s) blki) as [p|]; [|reflexivity]. cbn [bind].
  destruct (get (s_norms s) blki) as [nm|]; [|reflexivity]. cbn [bind].
  destruct (put (s_flags s) p f) as [fl|]; [|reflexivity]. cbn [bind].
  destruct (put (s_bnorms s) p nm) as [bn|]; [|reflexivity]. cbn [bind].
  destruct (side r p); [apply IH|].
  destruct (_ && _); [apply IH|].
  destruct (is_unconverged f); [|apply IH].
  destruct (put (s_norms s) (s_bs s) nm) as [n'|]; [|reflexivity]. cbn [bind].
  destruct (put (s_iev s) (s_bs s) p) as [i'|]; [|reflexivity]. cbn [bind].
  destruct (get (s_xs s) blki) as [x|]; [|reflexivity]. cbn [bind].
  destruct (put (s_xs s) (s_bs s) x) as [x'|]; [|reflexivity]. cbn [bind]. apply IH.
Qed.

Lemma rounds_r_rounds : forall fuel r bns (s : @sel R X) tr,
  option_map (@fst _ _) (roundsR fuel r bns s tr) = rounds q verdict resid vec side floor fuel r bns s.
Proof.
  induction fuel as [|fu IH]; intros r bns s tr; cbn [rounds_r rounds]; [reflexivity|].
  destruct (_ <=? _); [|reflexivity].
  destruct (check_block _ _ _ _ _ _ _) as [b|]; [|reflexivity]. cbn [bind].
  rewrite <- (inner_r_inner r (fst b) (s_bs s) _ tr).
  destruct (innerR _ _ _ _ _) as [[s1 tr1]|]; [|reflexivity]. cbn [bind option_map fst snd].
  destruct (find_next _ _ _ _ _ _) as [z|]; [|reflexivity]. cbn [bind].
  destruct (_ || _); [reflexivity|].
  destruct (compute_block _ _ _ _ _ _ _ _) as [c|]; [|reflexivity]. cbn [bind].
  destruct (floor_block _ _ _ _) as [nm|]; [|reflexivity]. cbn [bind]. apply IH.
Qed.

Lemma prepare_r_prepare : forall flags bnorms iev norms xs bns,
  option_map (@fst _ _) (prepareR flags bnorms iev norms xs bns)
  = prepare_candidates q verdict resid vec side floor flags bnorms iev norms xs bns.
Proof. intros. apply rounds_r_rounds. Qed.

(** What holds between turns: the block still to be looked at, and the reports made.
    [F0]: the flags at the beginning. *)
Variable F0 : list flag.
Notation B := (q_basisSize q).

Record ahead (s : @sel R X) (blki rem : nat) : Prop := {
  a_flags : length (s_flags s) = B;
  a_iev : q_cap q <= length (s_iev s);
  a_max : (s_max s <= Z.of_nat (q_cap q))%Z;
  a_bs : s_bs s <= blki;
  a_next : s_next s <= B;
  a_blk : forall j, blki <= j < blki + rem -> exists p,
     nth_error (s_iev s) j = Some p /\ s_next s <= p < B;
  a_inc : forall j j' p p', blki <= j -> j < j' -> j' < blki + rem ->
     nth_error (s_iev s) j = Some p -> nth_error (s_iev s) j' = Some p' -> p < p';
  a_same : forall p, s_next s <= p -> nth_error (s_flags s) p = nth_error F0 p }.

(** The report [rep] is about pair [p], the [k]-th accepted, and agrees with the state. *)
Definition about (s : @sel R X) (k p : nat) (rep : report) : Prop :=
  p < s_next s /\
  exists flags bnorms f nm,
    converged_documented look rep hVals bnorms flags B p /\
    r_nconv rep = (q_numConverged q + Z.of_nat (S k))%Z /\
    nth_error flags p = Some f /\ f <> UNCONVERGED /\ nth_error (s_flags s) p = Some f /\
    nth_error bnorms p = Some nm /\ nth_error (s_bnorms s) p = Some nm.

Record told (s : @sel R X) (tr : list report) (ps : list nat) : Prop := {
  t_len : length ps = length tr;
  t_rc : s_rc s = Z.of_nat (length tr);
  t_inc : StronglySorted lt ps;
  t_about : forall k p rep, nth_error ps k = Some p -> nth_error tr k = Some rep -> about s k p rep;
  t_all : forall p f, p < s_next s -> nth_error F0 p = Some UNCONVERGED ->
     nth_error (s_flags s) p = Some f -> f <> UNCONVERGED ->
     In p ps \/ (exists r, side r p = true) \/ (q_remained q <= s_rc s)%Z \/
     ((q_numEvals q - q_numLocked q <= Z.of_nat p)%Z /\ one_sided (q_target q) = false) }.

Lemma sorted_snoc : forall ps n, StronglySorted lt ps -> Forall (fun p => p < n) ps ->
  StronglySorted lt (ps ++ [n]).
Proof.
  induction ps as [|a ps IH]; intros n H1 H2; simpl; [repeat constructor|].
  inversion H1; subst. inversion H2; subst. constructor; [auto|].
  apply Forall_app. split; [auto|repeat constructor; auto].
Qed.

Lemma put_some_inv : forall A (l : list A) i v l', put l i v = Some l' -> i < length l /\ l' = upd l i v.
Proof.
  intros A l i v l' H. destruct (le_lt_dec (length l) i) as [L|L].
  - unfold put in H. destruct (Nat.ltb_spec i (length l)); [lia|discriminate].
  - rewrite put_some in H by auto. injection H as <-. auto.
Qed.

(** One pair looked at: nothing reported. *)
Lemma told_quiet : forall s tr ps blki rem r f p nm iev norms xs bs mx,
  ahead s blki (S rem) -> told s tr ps -> nth_error (s_iev s) blki = Some p ->
  p < length (s_bnorms s) ->
  (f <> UNCONVERGED -> side r p = true \/ (q_remained q <= s_rc s)%Z \/
     ((q_numEvals q - q_numLocked q <= Z.of_nat p)%Z /\ one_sided (q_target q) = false)) ->
  told (mkSel (upd (s_flags s) p f) (upd (s_bnorms s) p nm) iev norms xs bs (s_rc s) mx (S p)) tr ps.
Proof.
  intros s tr ps blki rem r f p nm iev norms xs bs mx A T Ep Lp Hf.
  destruct (a_blk _ _ _ A blki ltac:(lia)) as (p1 & E1 & Rp). assert (p1 = p) by congruence. subst p1.
  constructor; cbn [s_rc s_next s_flags s_bnorms].
  - apply (t_len _ _ _ T).
  - apply (t_rc _ _ _ T).
  - apply (t_inc _ _ _ T).
  - intros k p0 rep H1 H2. destruct (t_about _ _ _ T k p0 rep H1 H2) as (L & fl & bn & f0 & n0 & C1 & C2 & C3 & C4 & C5 & C6 & C7).
    split; cbn [s_next]; [lia|]. exists fl, bn, f0, n0. cbn [s_flags s_bnorms].
    rewrite !nth_error_upd_neq by lia. auto 10.
  - intros p0 f0 L H0 H1 H2. destruct (Nat.eq_dec p0 p) as [->|Ne].
    + rewrite nth_error_upd_eq in H1 by (rewrite (a_flags _ _ _ A); lia). injection H1 as <-.
      right. destruct (Hf H2) as [C|[C|C]]; eauto.
    + rewrite nth_error_upd_neq in H1 by auto.
      destruct (le_lt_dec (s_next s) p0) as [G|G].
      * rewrite (a_same _ _ _ A p0 G) in H1. congruence.
      * apply (t_all _ _ _ T p0 f0); auto.
Qed.

Lemma ahead_step : forall s blki rem f p iev bnorms norms xs bs rc mx,
  ahead s blki (S rem) -> nth_error (s_iev s) blki = Some p ->
  length iev = length (s_iev s) -> (forall j, blki < j -> nth_error iev j = nth_error (s_iev s) j) ->
  bs <= S blki -> (mx <= s_max s)%Z ->
  ahead (mkSel (upd (s_flags s) p f) bnorms iev norms xs bs rc mx (S p)) (S blki) rem.
Proof.
  intros s blki rem f p iev bnorms norms xs bs rc mx A Ep Li Ei Hb Hm.
  destruct (a_blk _ _ _ A blki ltac:(lia)) as (p1 & E1 & Rp). assert (p1 = p) by congruence. subst p1.
  pose proof (a_iev _ _ _ A). pose proof (a_max _ _ _ A).
  constructor; cbn [s_flags s_iev s_max s_bs s_next].
  - rewrite length_upd. apply (a_flags _ _ _ A).
  - lia.
  - lia.
  - lia.
  - lia.
  - intros j Hj. rewrite Ei by lia. destruct (a_blk _ _ _ A j ltac:(lia)) as (p' & E' & R').
    exists p'. split; [auto|]. pose proof (a_inc _ _ _ A blki j p p' ltac:(lia) ltac:(lia) ltac:(lia) Ep E'). lia.
  - intros j j' p0 p0' H1 H2 H3. rewrite !Ei by lia. apply (a_inc _ _ _ A); lia.
  - intros p0 Hp0. rewrite nth_error_upd_neq by lia. apply (a_same _ _ _ A). lia.
Qed.

Lemma inner_r_told : forall r fb blki s tr ps s' tr',
  ahead s blki (length fb) -> told s tr ps ->
  innerR r fb blki s tr = Some (s', tr') ->
  exists ps', told s' tr' ps' /\ ahead s' (s_bs s') 0.
Proof.
  induction fb as [|f fs IH]; intros blki s tr ps s' tr' A T E; cbn [inner_r] in E.
  - injection E as <- <-. exists ps. split; [auto|]. destruct A. constructor; auto; intros; lia.
  - cbn [length] in A. destruct (_ <? _)%Z.
    2:{ injection E as <- <-. exists ps. split; [auto|]. destruct A. constructor; auto; intros; lia. }
    destruct (a_blk _ _ _ A blki ltac:(lia)) as (p & Ep & Rp).
    unfold get at 1 in E. rewrite Ep in E. cbn [bind] in E.
    apply bind_some in E. destruct E as (nm & En & E).
    apply bind_some in E. destruct E as (fl & Ef & E). apply put_some_inv in Ef. destruct Ef as [Lf ->].
    apply bind_some in E. destruct E as (bn & Eb & E). apply put_some_inv in Eb. destruct Eb as [Lb ->].
    destruct (side r p) eqn:Es.
    { eapply IH; [| |exact E].
      - eapply ahead_step; eauto; try lia. pose proof (a_bs _ _ _ A). lia.
      - eapply told_quiet with (r := r); eauto. }
    destruct (negb (is_unconverged f) && (s_rc s <? q_remained q)%Z &&
        ((Z.of_nat p <? q_numEvals q - q_numLocked q)%Z || one_sided (q_target q))) eqn:Ec.
    { apply andb_true_iff in Ec. destruct Ec as [Ec _]. apply andb_true_iff in Ec. destruct Ec as [Ec _].
      assert (Nf : f <> UNCONVERGED) by (intros ->; discriminate).
      cbv zeta in E. eapply (IH _ _ _ (ps ++ [p])); [| |exact E].
      - eapply ahead_step; eauto; try lia. pose proof (a_bs _ _ _ A). lia.
      - constructor; cbn [s_rc s_next s_flags s_bnorms].
        + rewrite !app_length. simpl. pose proof (t_len _ _ _ T). lia.
        + rewrite app_length. simpl. pose proof (t_rc _ _ _ T). lia.
        + apply sorted_snoc; [apply (t_inc _ _ _ T)|]. apply Forall_forall. intros p0 Hp0.
          apply In_nth_error in Hp0. destruct Hp0 as [k Hk].
          destruct (nth_error tr k) as [rep|] eqn:Et.
          * destruct (t_about _ _ _ T k p0 rep Hk Et) as [L _]. lia.
          * apply nth_error_None in Et. assert (k < length ps) by (apply nth_error_Some; congruence).
            pose proof (t_len _ _ _ T). lia.
        + intros k p0 rep H1 H2. pose proof (t_len _ _ _ T) as Lt.
          destruct (lt_eq_lt_dec k (length tr)) as [[L|L]|L].
          * rewrite nth_error_app1 in H1, H2 by lia.
            destruct (t_about _ _ _ T k p0 rep H1 H2) as (L' & fl & bn & f0 & n0 & C1 & C2 & C3 & C4 & C5 & C6 & C7).
            split; cbn [s_next]; [lia|]. exists fl, bn, f0, n0. cbn [s_flags s_bnorms].
            rewrite !nth_error_upd_neq by lia. auto 10.
          * subst k. rewrite nth_error_app2 in H2 by lia. rewrite nth_error_app2 in H1 by lia.
            replace (length tr - length ps) with 0 in H1 by lia. rewrite Nat.sub_diag in H2.
            cbn [nth_error] in H1, H2. injection H1 as <-. injection H2 as <-.
            split; cbn [s_next]; [lia|].
            exists (upd (s_flags s) p f), (upd (s_bnorms s) p nm), f, nm. cbn [s_flags s_bnorms].
            assert (Sk : skipn blki (s_iev s) = p :: skipn (S blki) (s_iev s)).
            { clear - Ep. revert Ep. generalize (s_iev s). induction blki as [|n IHn]; intros [|a l] Ep;
                try discriminate; simpl in *; [congruence|]. apply IHn; auto. }
            rewrite Sk.
            destruct (converged_arguments hVals (q_basisSize q) (upd (s_flags s) p f) p (skipn (S blki) (s_iev s))
               (upd (s_bnorms s) p nm) (q_numConverged q + (s_rc s + 1))) as [D1 D2].
            rewrite D2, !nth_error_upd_eq by lia. split; [exact D1|]. split; [|auto 10].
            pose proof (t_rc _ _ _ T). lia.
          * assert (nth_error (tr ++ [converged_call same conv nonneg minus_one hVals B (upd (s_flags s) p f)
               (skipn blki (s_iev s)) (upd (s_bnorms s) p nm) (q_numConverged q + (s_rc s + 1))]) k = None) as C.
            { apply nth_error_None. rewrite app_length. simpl. lia. }
            congruence.
        + intros p0 f0 L H0 H1 H2. destruct (Nat.eq_dec p0 p) as [->|Ne].
          * left. apply in_or_app. right. left. auto.
          * rewrite nth_error_upd_neq in H1 by auto.
            destruct (le_lt_dec (s_next s) p0) as [G|G].
            -- rewrite (a_same _ _ _ A p0 G) in H1. congruence.
            -- destruct (t_all _ _ _ T p0 f0 G H0 H1 H2) as [C|[C|[C|C]]]; auto.
               left. apply in_or_app. auto. right. right. left. lia. }
    destruct (is_unconverged f) eqn:Eu.
    { apply unconv_iff in Eu. subst f.
      apply bind_some in E. destruct E as (n' & En' & E).
      apply bind_some in E. destruct E as (i' & Ei' & E). apply put_some_inv in Ei'. destruct Ei' as [Li ->].
      apply bind_some in E. destruct E as (x & Ex & E).
      apply bind_some in E. destruct E as (x' & Ex' & E).
      pose proof (a_bs _ _ _ A) as Hbs.
      eapply IH; [| |exact E].
      - eapply ahead_step; eauto; try lia; [apply length_upd|].
        intros j Hj. apply nth_error_upd_neq. lia.
      - eapply told_quiet with (r := r); eauto. }
    { eapply IH; [| |exact E].
      - eapply ahead_step; eauto; try lia. pose proof (a_bs _ _ _ A). lia.
      - eapply told_quiet with (r := r); eauto. intros _. right.
        rewrite andb_false_iff, andb_false_iff, orb_false_iff in Ec. cbn [negb] in Ec.
        destruct Ec as [[C|C]|[C1 C2]]; [discriminate|left; apply Z.ltb_ge in C; lia|].
        right. split; [apply Z.ltb_ge in C1; lia|auto]. }
Qed.

Lemma check_block_len : forall r flags iev cnt norms j b,
  check_block verdict r flags iev norms j cnt = Some b -> length (fst b) = cnt.
Proof.
  induction cnt as [|c IH]; intros norms j b E; cbn [check_block] in E.
  - injection E as <-. reflexivity.
  - apply bind_some in E. destruct E as (p & _ & E). apply bind_some in E. destruct E as (f & _ & E).
    apply bind_some in E. destruct E as (nm & _ & E). cbv zeta in E.
    apply bind_some in E. destruct E as (n' & _ & E). apply bind_some in E. destruct E as (z & Ez & E).
    injection E as <-. cbn [fst length]. f_equal. eapply IH; eauto.
Qed.

Lemma rounds_r_told : forall fuel r bns s tr ps s' tr',
  ahead s (s_bs s) bns -> told s tr ps ->
  roundsR fuel r bns s tr = Some (s', tr') -> exists ps', told s' tr' ps'.
Proof.
  induction fuel as [|fu IH]; intros r bns s tr ps s' tr' A T E; cbn [rounds_r] in E; [discriminate|].
  destruct (_ <=? _); [|discriminate].
  apply bind_some in E. destruct E as (b & Eb & E).
  apply bind_some in E. destruct E as ([s1 tr1] & E1 & E). cbv zeta in E. cbn [fst snd] in E.
  assert (A0 : ahead (mkSel (s_flags s) (s_bnorms s) (s_iev s) (snd b) (s_xs s) (s_bs s) (s_rc s) (s_max s) (s_next s))
                 (s_bs s) (length (fst b))).
  { rewrite (check_block_len _ _ _ _ _ _ _ Eb). destruct A. constructor; auto. }
  destruct (inner_r_told r (fst b) (s_bs s) _ tr ps s1 tr1 A0) as (ps1 & T1 & A1); [|exact E1|].
  { destruct T. constructor; auto. }
  destruct (find_next_ok (s_flags s1) (s_max s1) (B - s_next s1) (s_next s1) (s_bs s1) (s_iev s1))
    as (iev & blki & e & Ef & F1 & F2 & F3 & F4 & F5 & F6 & F7 & F8 & F9).
  { rewrite (a_flags _ _ _ A1). pose proof (a_next _ _ _ A1). lia. }
  { pose proof (a_iev _ _ _ A1). pose proof (a_max _ _ _ A1). lia. }
  rewrite Ef in E. cbn [bind fst snd] in E.
  destruct (_ || _).
  - injection E as <- <-. exists ps1. destruct T1. constructor; auto.
  - apply bind_some in E. destruct E as (c & Ec & E). apply bind_some in E. destruct E as (nm & _ & E).
    eapply (IH _ _ _ _ ps1); [| |exact E].
    + destruct A1 as [B1 B2 B3 B4 B5 B6 B7 B8].
      constructor; cbn [s_flags s_iev s_max s_bs s_next]; auto; try lia.
      * intros j Hj. destruct (F7 j ltac:(lia)) as (p & C1 & C2 & C3). exists p. split; [auto|]. lia.
      * intros j j' p p' H1 H2 H3. apply F8; lia.
    + destruct T1. constructor; auto.
Qed.
End Select.

(** "A new eigenpair in the basis passed the convergence criterion": a call of the selection
    reports exactly the pairs it counts, each once, in increasing position; the k-th report
    is about one pair, shows its flag and norm as the solver goes on with them, and the
    number of pairs found so far.  None of them is expanded. *)
Theorem C61_converged : forall X (q : sel_in) verdict resid (vec : nat -> X) side floor hVals
    flags bnorms iev norms xs bns s' tr,
  handed_over q vec flags bnorms iev norms xs bns ->
  prepare_candidates_r same conv nonneg minus_one q verdict resid vec side floor hVals
    flags bnorms iev norms xs bns = Some (s', tr) ->
  prepare_candidates q verdict resid vec side floor flags bnorms iev norms xs bns = Some s' /\
  exists ps, StronglySorted lt ps /\ length ps = length tr /\ Z.of_nat (length tr) = s_rc s' /\
    (forall p, In p ps -> ~ In p (chosen s')) /\
    (forall k p rep, nth_error ps k = Some p -> nth_error tr k = Some rep ->
       r_nconv rep = (q_numConverged q + Z.of_nat (S k))%Z /\
       exists fl bn f nm, converged_documented look rep hVals bn fl (q_basisSize q) p /\
         f <> UNCONVERGED /\ nth_error fl p = Some f /\ nth_error (s_flags s') p = Some f /\
         nth_error bn p = Some nm /\ nth_error (s_bnorms s') p = Some nm) /\
    (* and no pair that converged in the call is left out, unless it is on the wrong side,
       enough pairs have been found, or it is beyond the pairs wanted *)
    (forall p f, p < s_next s' -> nth_error flags p = Some UNCONVERGED ->
       nth_error (s_flags s') p = Some f -> f <> UNCONVERGED ->
       In p ps \/ (exists r, side r p = true) \/ (q_remained q <= s_rc s')%Z \/
       ((q_numEvals q - q_numLocked q <= Z.of_nat p)%Z /\ one_sided (q_target q) = false)).
Proof.
  intros X q verdict resid vec side floor hVals flags bnorms iev norms xs bns s' tr H E.
  assert (E0 : prepare_candidates q verdict resid vec side floor flags bnorms iev norms xs bns = Some s').
  { rewrite <- (prepare_r_prepare q verdict resid vec side floor hVals). rewrite E. reflexivity. }
  split; [exact E0|].
  unfold prepare_candidates_r in E.
  assert (exists ps, told q side hVals flags s' tr ps) as (ps & T).
  { eapply (rounds_r_told q verdict resid vec side floor hVals flags _ 0 bns _ [] [] s' tr); [| |exact E].
  - constructor; cbn [s_flags s_iev s_max s_bs s_next].
    + apply (ho_flags _ _ _ _ _ _ _ _ H).
    + apply (ho_iev _ _ _ _ _ _ _ _ H).
    + lia.
    + lia.
    + lia.
    + pose proof (ho_iev _ _ _ _ _ _ _ _ H). pose proof (ho_fits _ _ _ _ _ _ _ _ H).
      intros j Hj. destruct (get_some _ iev j ltac:(lia)) as [p Ep]. exists p. split; [exact Ep|].
      pose proof (ho_pairs _ _ _ _ _ _ _ _ H) as HP. rewrite Forall_forall in HP.
      split; [lia|]. apply HP. apply (nth_error_In _ j).
      rewrite PropsSelect.nth_error_firstn. destruct (Nat.ltb_spec j bns); [exact Ep|lia].
    + intros j j' p p' H1 H2 H3 E1 E2. pose proof (ho_sorted _ _ _ _ _ _ _ _ H) as HS.
      assert (N1 : nth_error (firstn bns iev) j = Some p)
        by (rewrite PropsSelect.nth_error_firstn; destruct (Nat.ltb_spec j bns); [auto|lia]).
      assert (N2 : nth_error (firstn bns iev) j' = Some p')
        by (rewrite PropsSelect.nth_error_firstn; destruct (Nat.ltb_spec j' bns); [auto|lia]).
      clear - HS N1 N2 H2. revert j j' N1 N2 H2. induction HS as [|a l HS IH HF]; intros j j' N1 N2 L.
      * destruct j; discriminate.
      * destruct j' as [|j']; [lia|]. cbn [nth_error] in N2. destruct j as [|j]; cbn [nth_error] in N1.
        -- injection N1 as <-. rewrite Forall_forall in HF. apply HF. eapply nth_error_In; eauto.
        -- apply (IH j j'); auto. lia.
    + auto.
  - constructor; cbn [s_rc s_next s_bs]; auto; try lia.
    + constructor.
    + intros k p rep C. destruct k; discriminate. }
  exists ps. pose proof (t_rc _ _ _ _ _ _ _ T) as Hrc.
    split; [apply (t_inc _ _ _ _ _ _ _ T)|]. split; [apply (t_len _ _ _ _ _ _ _ T)|].
    split; [lia|].
    assert (Ab : forall k p rep, nth_error ps k = Some p -> nth_error tr k = Some rep ->
       about q hVals s' k p rep) by (apply (t_about _ _ _ _ _ _ _ T)).
    split; [|split].
    + intros p Hp Hc. apply In_nth_error in Hp. destruct Hp as [k Hk].
      destruct (nth_error tr k) as [rep|] eqn:Et.
      2:{ apply nth_error_None in Et. assert (k < length ps) by (apply nth_error_Some; congruence).
          pose proof (t_len _ _ _ _ _ _ _ T). lia. }
      destruct (Ab k p rep Hk Et) as (_ & fl & bn & f & nm & _ & _ & _ & Nf & Ef & _).
      destruct (C24_selection q verdict resid vec side floor flags bnorms iev norms xs bns H)
        as (s2 & E2 & _ & _ & _ & Ch & _). rewrite E0 in E2. injection E2 as <-.
      apply In_nth_error in Hc. destruct Hc as [j Hj].
      destruct (Ch j p Hj) as (_ & U & _). congruence.
    + intros k p rep Hk Et. destruct (Ab k p rep Hk Et) as (_ & fl & bn & f & nm & C1 & C2 & C3 & C4 & C5 & C6 & C7).
      split; [auto|]. exists fl, bn, f, nm. auto 10.
    + apply (t_all _ _ _ _ _ _ _ T).
Qed.
End C61.
Print Assumptions C61_outer_arguments.
Print Assumptions C61_inner_arguments.
Print Assumptions C61_converged.
