(** Invariants of the model of main_iter. *)
From Coq Require Import List Arith ZArith Bool Lia.
From Verif Require Import Base RestartModel MainModel SpecMain.
Import ListNotations.

Ltac fields := cbn [pc mv outer nc nl bsz blk whole reset prepared est guesses nextg isz nret ret
  set_pc set_mv set_outer set_nc set_nl set_bsz set_blk set_whole set_reset set_prepared set_est
  set_guesses set_nextg set_isz set_nret set_ret] in *.
Ltac ifs := repeat match goal with
  | |- context [if ?b then _ else _] => let E := fresh "E" in destruct b eqn:E; fields
  end.
Ltac bools := repeat match goal with
  | H : (_ && _) = true |- _ => apply andb_true_iff in H; destruct H
  | H : (_ || _) = false |- _ => apply orb_false_iff in H; destruct H
  | H : negb _ = true |- _ => apply negb_true_iff in H
  | H : negb _ = false |- _ => apply negb_false_iff in H
  | H : (_ <? _) = true |- _ => apply Nat.ltb_lt in H
  | H : (_ <? _) = false |- _ => apply Nat.ltb_ge in H
  | H : (_ <=? _) = true |- _ => apply Nat.leb_le in H
  | H : (_ <=? _) = false |- _ => apply Nat.leb_gt in H
  | H : (_ =? _) = true |- _ => apply Nat.eqb_eq in H
  | H : (_ =? _) = false |- _ => apply Nat.eqb_neq in H
  end.

Lemma late_le : forall p o b s, nc s <= p_numEvals p ->
  nc s + late_pairs p o b s <= p_numEvals p.
Proof. intros. unfold late_pairs. destruct (_ && _); lia. Qed.

Lemma max_recent_le : forall p s, nl s <= nc s -> max_recent p s <= nc s + 1 + p_numEvals p.
Proof. intros. unfold max_recent. destruct (by_shift p s); lia. Qed.

Lemma avail_le : forall p s, avail p s <= p_maxBasis p - bsz s /\
  (1 <= p_maxBlock p -> avail p s <= p_maxBlock p).
Proof. intros. unfold avail. destruct (by_shift p s); lia. Qed.

Lemma avail_pos : forall p s, 1 <= p_maxBlock p -> bsz s < p_maxBasis p -> 1 <= avail p s.
Proof. intros. unfold avail. destruct (by_shift p s); lia. Qed.

(** The guesses: how the fields change. *)
Lemma add_guesses_fields : forall p o s, bsz s <= p_maxBasis p ->
  let s' := add_guesses p o s in
  exists g k, g <= k /\ k <= guesses s /\
    bsz s' = bsz s + g /\ bsz s' <= p_maxBasis p /\ mv s + g <= mv s' <= mv s + g + per_vector p * k /\
    guesses s' = guesses s - k /\ nextg s' = nextg s + k /\
    pc s' = pc s /\ outer s' = outer s /\ nc s' = nc s /\ nl s' = nl s /\ blk s' = blk s /\
    whole s' = whole s /\ reset s' = reset s /\ prepared s' = prepared s /\ est s' = est s /\
    isz s' = isz s /\ nret s' = nret s /\ ret s' = ret s.
Proof.
  intros p o s Hb. unfold add_guesses. destruct (Nat.ltb_spec 0 (guesses s)) as [Hg|Hg]; cbn zeta.
  - match goal with |- context [Z.to_nat ?x] => remember (Z.to_nat x) as k eqn:Ek end.
    exists (Nat.min (o_gain2 o) k), k. fields.
    assert (k <= guesses s /\ bsz s + k <= p_maxBasis p).
    { subst k. unfold new_guesses. lia. }
    unfold per_vector. destruct (p_B p); repeat split; lia.
  - exists 0, 0. repeat split; auto; lia.
Qed.

(** What the end of a turn of the restarting loop changes. *)
Lemma after_spec : forall p o s, bsz s <= p_maxBasis p -> o_bsz o <= bsz s ->
  let s' := after p o s in
  (s' = set_pc POuter (set_reset true s) /\
    (reset s = true \/ o_tol o = true \/ o_reset2 o = true)) \/
  (reset s = false /\ exists g k, g <= k /\ k <= guesses s /\
    bsz s' = o_bsz o + g /\ bsz s' <= p_maxBasis p /\ mv s + g <= mv s' <= mv s + g + per_vector p * k /\
    guesses s' = guesses s - k /\
    pc s' = PRestart /\ outer s' = outer s /\ nc s' = o_nc o /\ nl s' = o_nl o /\
    whole s' = whole s /\ reset s' = reset s /\ est s' = true /\
    isz s' = o_nc o /\ nret s' = nret s /\ ret s' = ret s).
Proof.
  intros p o s Hb Ho. cbn zeta. unfold after. cbn zeta.
  destruct (reset s || ((p_n p - p_noc p - nl s <=? bsz s) && o_tol o)) eqn:E1.
  { left. split; auto. apply orb_true_iff in E1. destruct E1 as [E1|E1]; auto.
    apply andb_true_iff in E1. tauto. }
  destruct (negb (prepared s) && o_reset2 o) eqn:E2.
  { left. split; auto. apply andb_true_iff in E2. tauto. }
  right. apply orb_false_iff in E1. destruct E1 as [E1 _]. split; [exact E1|].
  match goal with |- context [add_guesses p o ?x] =>
    pose proof (add_guesses_fields p o x) as X; remember (add_guesses p o x) as s' eqn:Es end.
  clear Es. fields. specialize (X ltac:(lia)). cbn zeta in X.
  destruct X as (g & k & X1 & X2 & X3 & X4 & X5 & X6 & X7 & X8 & X9 & X10 & X11 & X12 & X13 & X14 & X15 & X16 & X17 & X18 & X19).
  exists g, k. repeat split; auto; lia.
Qed.

(** Holds in every reachable state. *)
Record inv (p : params) (s : st) : Prop := {
  i_bsz : bsz s <= p_maxBasis p;
  i_nl : nl s <= nc s;
  i_nlE : nl s <= p_numEvals p;
  i_soft : p_locking p = false -> nl s = 0;
  i_iszE : isz s <= p_numEvals p;
  i_nret : pc s <> PDone -> nret s = 0;
  i_nretE : nret s <= p_numEvals p;
  i_ret : pc s <> PDone -> ret s = (-3)%Z;
  i_nc : pc s = PRestart \/ pc s = PBasis \/ pc s = PFinish -> nc s <= p_numEvals p;
  i_ncA : nc s <= p_numEvals p + 1;
  i_sync : pc s = PRestart \/ pc s = PFinish -> isz s = nc s /\ reset s = false;
  i_open : pc s = PBasis \/ pc s = PAfter -> isz s < p_numEvals p /\ nl s < p_numEvals p;
  i_locked : p_locking p = true -> pc s <> PDone -> nl s = isz s;
  i_outer : pc s = POuter -> isz s < p_numEvals p \/ p_locking p = false;
  i_done : pc s = PDone ->
    (ret s = 0%Z /\ (isz s = p_numEvals p \/ p_locking p = true /\ whole s = true)) \/
    (ret s = (-3)%Z /\
      (isz s < p_numEvals p \/
       p_locking p = false /\ isz s = p_numEvals p /\ nret s = 0 /\ under p s = false))
}.

Lemma under_mono : forall p s s', mv s <= mv s' -> outer s <= outer s' ->
  under p s = false -> under p s' = false.
Proof.
  unfold under. intros p s s' Hm Ho H.
  apply andb_false_iff in H. apply andb_false_iff.
  destruct H as [H|H].
  - left. bools. apply Nat.ltb_ge. lia.
  - right. bools. apply orb_false_iff. split; [apply Nat.eqb_neq; auto|apply Nat.ltb_ge; lia].
Qed.

(** What one turn of the expansion changes. *)
Lemma expand_spec : forall p o s, inv p s -> legal p s o -> pc s = PBasis ->
  bsz s < p_maxBasis p -> 1 <= p_maxBlock p ->
  let s' := expand p o s in
  outer s' = S (outer s) /\ nl s' = nl s /\ isz s' = isz s /\ nret s' = nret s /\
  ret s' = ret s /\ guesses s' = guesses s /\ nextg s' = nextg s /\ est s' = est s /\
  (pc s' = PAfter \/ pc s' = PBasis) /\
  bsz s <= bsz s' <= p_maxBasis p /\ nc s <= nc s' <= p_numEvals p + 1 /\
  (pc s' = PBasis -> nc s' <= p_numEvals p /\ bsz s < bsz s') /\
  mv s <= mv s' /\
  mv s' <= mv s + o_inner o + o_bmv o + o_gain o.
Proof.
  intros p o s I L Hpc Hb H1.
  pose proof (i_nc p s I) as Hnc. pose proof (i_nl p s I) as Hnl.
  assert (Hnc' : nc s <= p_numEvals p) by (apply Hnc; tauto). clear Hnc.
  pose proof (l_both p s o L Hnc') as Hboth. pose proof (l_gain p s o L) as Hgain.
  pose proof (l_blk p s o L) as Hblk. pose proof (avail_le p s) as [Ha1 _].
  pose proof (avail_pos p s H1 Hb) as Ha0.
  unfold expand. cbn zeta. fields.
  set (s1 := set_prepared _ _).
  destruct (break_now p o s1) eqn:Eb.
  { subst s1. fields. repeat split; auto; try lia; intros; discriminate. }
  assert (Hlt : nc s + o_rc o < p_numEvals p).
  { unfold break_now in Eb. bools. unfold s1 in *. fields. lia. }
  assert (Hlate : nc s + o_rc o + late_pairs p o (o_blk o)
     (set_mv (mv s + (if 0 <? o_blk o then o_inner o else 0) + o_bmv o) s1) <= p_numEvals p).
  { pose proof (late_le p o (o_blk o)
      (set_mv (mv s + (if 0 <? o_blk o then o_inner o else 0) + o_bmv o) s1)) as X.
    unfold s1 in *. fields. apply X. lia. }
  unfold s1 in *. fields. clear s1 Eb.
  match goal with |- context [late_pairs ?a ?b ?c ?d] => remember (late_pairs a b c d) as lp eqn:Elp end.
  clear Elp.
  destruct (0 <? o_blk o); (
  destruct (o_gain o =? 0) eqn:Eg; fields;
  [destruct ((o_blk o =? 0) && negb (reset s || o_reset o)); fields;
     repeat split; auto; try lia; intros; discriminate|];
  apply Nat.eqb_neq in Eg;
  ifs; repeat split; auto; try lia; intros; try discriminate; lia).
Qed.

Ltac easy_inv := fields; auto; try (intros; discriminate); try lia;
  try (intros; congruence); try (intros; intuition (discriminate || lia)).

Lemma inv_step : forall p o s, 1 <= p_maxBlock p -> inv p s -> legal p s o -> pc s <> PDone ->
  inv p (step p o s).
Proof.
  intros p o s H1 I L Hp.
  pose proof I as [A1 A2 A3 A4 A5 A6 A7 A8 A9 A10 A11 A12 A13 A14 A15].
  specialize (A6 Hp). specialize (A8 Hp). unfold step. destruct (pc s) eqn:Epc.
  - (* POuter *)
    clear A9 A11 A12 A15. specialize (A14 eq_refl).
    destruct (under p s) eqn:Eu; split; easy_inv.
    + intros _. right. split; auto.
      destruct (Nat.eq_dec (isz s) (p_numEvals p)); [right|left; lia].
      split; [destruct A14; [lia|auto]|]. auto.
  - (* PRestart *)
    specialize (A9 ltac:(tauto)). specialize (A11 (or_introl eq_refl)). destruct A11 as [A11 A11'].
    clear A12 A14 A15.
    destruct ((nc s <? p_numEvals p) && under p s && negb (whole s)) eqn:Ec;
      bools; split; easy_inv.
  - (* PBasis *)
    specialize (A9 ltac:(tauto)). specialize (A12 (or_introl eq_refl)). clear A11 A14 A15.
    destruct ((bsz s <? p_maxBasis p) && under p s) eqn:Ec.
    + bools. pose proof (expand_spec p o s I L Epc H H1) as X. cbn zeta in X.
      remember (expand p o s) as s' eqn:Es. clear Es.
      destruct X as (X1 & X2 & X3 & X4 & X5 & X6 & X7 & X8 & X9 & X10 & X11 & X12 & X13 & X14).
      split; rewrite ?X2, ?X3, ?X4, ?X5; auto; try lia; try (intros; intuition congruence).
    + split; easy_inv.
  - (* PAfter *)
    specialize (A12 (or_intror eq_refl)). clear A9 A11 A14 A15.
    pose proof (l_nl p s o L) as L1. pose proof (l_locking p s o L) as L2.
    pose proof (l_soft p s o L) as L3. pose proof (l_bsz p s o L) as L4.
    pose proof (after_spec p o s A1 L4) as X. cbn zeta in X.
    destruct X as [[X _]|(Hr & g & k & X1 & X2 & X3 & X4 & X5 & X6 & X8 & X9 & X10 & X11 & X13 & X14 & X16 & X17 & X18 & X19)].
    { rewrite X. split; easy_inv. }
    remember (after p o s) as s' eqn:Es. clear Es.
    assert (Hnl : o_nl o <= o_nc o /\ o_nc o <= p_numEvals p).
    { destruct (p_locking p); [rewrite L2 by auto; lia|].
      destruct (L3 eq_refl). split; [|auto]. rewrite H, A4; auto. lia. }
    split; rewrite ?X8, ?X10, ?X11, ?X17, ?X18, ?X19, ?X14; auto; try lia;
      try (intros; intuition (discriminate || lia)).
  - (* PFinish *)
    specialize (A9 ltac:(tauto)). specialize (A11 (or_intror eq_refl)). destruct A11 as [A11 A11'].
    clear A12 A14 A15. unfold finish. destruct (p_locking p) eqn:El.
    + pose proof (l_copied p s o L A9) as L1.
      destruct ((p_numEvals p <=? nc s) || (bsz s =? 0)) eqn:E1;
      destruct ((nc s =? p_numEvals p) || whole s) eqn:E2; split; easy_inv.
      all: intros _; rewrite El.
      all: try (left; split; [reflexivity|]; apply orb_true_iff in E2; destruct E2 as [E2|E2];
             [bools; left; lia|right; auto]; fail).
      all: right; split; [reflexivity|left; bools; lia].
    + pose proof (l_ver p s o L) as L1. cbn zeta. fields.
      destruct (negb (under p s) || (p_numEvals p <=? o_ver o) || whole s) eqn:E1.
      * assert (Hv : o_ver o <= p_numEvals p) by (destruct (under p s); lia).
        specialize (A4 eq_refl).
        destruct (p_numEvals p <=? o_ver o) eqn:E2; bools; split; easy_inv.
      * specialize (A4 eq_refl). pose proof (l_bsz3 p s o L). split; easy_inv.
  - congruence.
Qed.

Lemma inv_start : forall p m b g x, b <= p_maxBasis p -> inv p (start p m b g x).
Proof.
  intros p m b g x Hb. unfold start. destruct (Nat.eqb_spec (p_numEvals p) 0) as [E|E];
    split; easy_inv.
Qed.

Lemma inv_steps : forall p s h s', 1 <= p_maxBlock p -> inv p s -> steps p s h s' -> inv p s'.
Proof.
  intros p s h s' H1 I H. induction H; auto. apply IHsteps. apply inv_step; auto.
Qed.

(** A test for [legal], to run histories. *)
Definition imp (a b : bool) : bool := negb a || b.
Definition legal_b (p : params) (s : st) (o : choice) : bool :=
  (o_blk o <=? avail p s) && (o_rc o <=? max_recent p s) &&
  imp (nc s <=? p_numEvals p) (o_blk o + o_rc o <=? p_numEvals p - nc s + 1) &&
  imp (negb (p_inner p)) (o_inner o =? 0) &&
  (o_inner o <=? o_blk o * (per_inner p * (p_maxMatvecs p - mv s))) &&
  (o_gain o <=? Nat.max 1 (o_blk o)) &&
  (o_bmv o <=? per_vector p * Nat.max 1 (o_blk o)) && (o_bmv3 o <=? per_vector p * bsz s) &&
  imp (negb (est s)) (negb (o_tol o)) && imp (negb (est s)) (negb (o_reset2 o)) &&
  ((nl s <=? o_nl o) && (o_nl o <=? p_numEvals p)) &&
  imp (p_locking p) (o_nc o =? o_nl o) &&
  imp (negb (p_locking p)) ((o_nl o =? nl s) && (o_nc o <=? p_numEvals p)) &&
  (o_bsz o <=? bsz s) &&
  imp (((p_locking p && (p_maxBasis p <? p_n p)) || (bsz s + nl s + p_noc p <? p_n p)) && (o_failed o =? 0)) (o_bsz o <? p_maxBasis p) &&
  imp (nc s <=? p_numEvals p) ((nc s <=? o_copied o) && (o_copied o <=? p_numEvals p)) &&
  (o_ver o <=? (if under p s then nc s else p_numEvals p)) &&
  (o_bsz3 o <=? bsz s).

Lemma imp_elim : forall a b, imp a b = true -> a = true -> b = true.
Proof. unfold imp. intros a b H E. rewrite E in H. exact H. Qed.

Lemma legal_b_ok : forall p s o, legal_b p s o = true -> legal p s o.
Proof.
  intros p s o H. unfold legal_b in H.
  repeat match goal with H : (_ && _) = true |- _ => apply andb_true_iff in H; destruct H end.
  split; intros; bools; auto;
  repeat match goal with
  | H : imp ?a ?b = true |- _ =>
      let X := fresh in
      first [ assert (X : a = true) by
                (first [assumption | apply negb_true_iff; assumption | apply Nat.leb_le; assumption |
                        apply andb_true_iff; split; [apply orb_true_iff; rewrite andb_true_iff, !Nat.ltb_lt; assumption|apply Nat.eqb_eq; assumption]]);
              apply (imp_elim a b H) in X; clear H | clear H ]
  end; bools; auto.
Qed.

Fixpoint runb (p : params) (s : st) (h : list choice) : option st :=
  match h with
  | [] => Some s
  | o :: h' =>
    match pc s with
    | PDone => None
    | _ => if legal_b p s o then runb p (step p o s) h' else None
    end
  end.

Lemma runb_steps : forall p h s s', runb p s h = Some s' -> steps p s h s'.
Proof.
  intros p. induction h as [|o h IH]; intros s s' H; cbn [runb] in H.
  - inversion H; subst. constructor.
  - assert (pc s <> PDone /\ legal_b p s o = true /\ runb p (step p o s) h = Some s') as (H1 & H2 & H3).
    { destruct (pc s); try discriminate; destruct (legal_b p s o); try discriminate; repeat split; auto; discriminate. }
    constructor; auto. apply legal_b_ok; auto.
Qed.

(** The counters never decrease, and the guesses never increase. *)
Lemma step_mono : forall p o s, 1 <= p_maxBlock p -> inv p s -> legal p s o -> pc s <> PDone ->
  mv s <= mv (step p o s) /\ outer s <= outer (step p o s) /\ guesses (step p o s) <= guesses s.
Proof.
  intros p o s H1 I L Hp. unfold step. destruct (pc s) eqn:Epc.
  - destruct (under p s); fields; lia.
  - destruct (_ && _); fields; lia.
  - destruct ((bsz s <? p_maxBasis p) && under p s) eqn:Ec; [|fields; lia].
    bools. pose proof (expand_spec p o s I L Epc H H1) as X. cbn zeta in X. lia.
  - pose proof (after_spec p o s (i_bsz p s I) (l_bsz p s o L)) as X. cbn zeta in X.
    destruct X as [[X _]|(_ & g & k & X)]; [rewrite X; fields; lia|]. lia.
  - unfold finish. destruct (p_locking p).
    + destruct (_ || (bsz s =? 0)); fields; lia.
    + cbn zeta. fields. destruct (_ || whole s); fields; lia.
  - congruence.
Qed.

Lemma step_cost : forall p o s, 1 <= p_maxBlock p -> inv p s -> legal p s o -> pc s <> PDone ->
  let s' := step p o s in
  let c := per_vector p in
  (mv s' + (1 + c) * guesses s' <= mv s + (1 + c) * guesses s /\ (under p s = false -> outer s' = outer s)) \/
  (under p s = true /\
   (mv s' + (1 + c) * guesses s' <= mv s + (1 + c) * guesses s + o_inner o + (1 + c) * p_maxBlock p /\
    o_inner o <= p_maxBlock p * (per_inner p * (p_maxMatvecs p - mv s)) \/
    p_locking p = false /\ mv s' + (1 + c) * guesses s' <= mv s + (1 + c) * guesses s + (1 + c) * p_maxBasis p)).
Proof.
  intros p o s H1 I L Hp. cbn zeta. unfold step. destruct (pc s) eqn:Epc.
  - left. destruct (under p s); fields; auto.
  - left. destruct (_ && _); fields; auto.
  - destruct ((bsz s <? p_maxBasis p) && under p s) eqn:Ec; [|left; fields; auto].
    bools. pose proof (expand_spec p o s I L Epc H H1) as X. cbn zeta in X.
    right. split; auto. left.
    pose proof (l_bmv p s o L). pose proof (l_gain p s o L). pose proof (l_inner p s o L).
    pose proof (l_blk p s o L). pose proof (avail_le p s) as [_ Ha]. specialize (Ha H1).
    split; [|eapply Nat.le_trans; [eassumption|]; apply Nat.mul_le_mono_r; lia].
    assert (per_vector p * Nat.max 1 (o_blk o) <= per_vector p * p_maxBlock p) by (apply Nat.mul_le_mono_l; lia).
    assert ((1 + per_vector p) * guesses (expand p o s) <= (1 + per_vector p) * guesses s) by (apply Nat.mul_le_mono_l; lia).
    lia.
  - left. pose proof (after_spec p o s (i_bsz p s I) (l_bsz p s o L)) as X. cbn zeta in X.
    destruct X as [[X _]|(_ & g & k & X)]; [rewrite X; fields; auto|].
    assert ((1 + per_vector p) * guesses s = (1 + per_vector p) * guesses (after p o s) + (1 + per_vector p) * k) by (rewrite <- Nat.mul_add_distr_l; f_equal; lia).
    lia.
  - unfold finish. destruct (p_locking p).
    + left. destruct (_ || (bsz s =? 0)); fields; auto.
    + cbn zeta. fields. destruct (_ || whole s) eqn:E; fields; [left; auto|].
      right. bools. split; auto. right. split; auto.
      pose proof (l_bsz3 p s o L). pose proof (i_bsz p s I). pose proof (l_bmv3 p s o L).
      assert (per_vector p * bsz s <= per_vector p * p_maxBasis p) by (apply Nat.mul_le_mono_l; lia). lia.
  - congruence.
Qed.

(** Returned with locking. *)
Lemma locking_nret : forall p s h s', 1 <= p_maxBlock p -> p_locking p = true -> inv p s ->
  (pc s = PDone -> isz s = p_numEvals p -> nret s = 0) -> steps p s h s' ->
  pc s' = PDone -> isz s' = p_numEvals p -> nret s' = 0.
Proof.
  intros p s h s' H1 El I J H. revert I J. induction H; auto. intros I J.
  pose proof (inv_step p o s H1 I H0 H) as I'. apply IHsteps; auto.
  intros Hd He. pose proof (i_nret p s I H) as Hn.
  unfold step in *. destruct (pc s) eqn:Epc.
  - destruct (under p s); fields; auto.
  - destruct (_ && _); fields; auto.
  - pose proof (expand_spec p o s I H0 Epc) as X. cbn zeta in X.
    destruct ((bsz s <? p_maxBasis p) && under p s) eqn:Ec; fields; auto. bools.
    destruct (X ltac:(auto) H1) as (_ & _ & _ & -> & _). auto.
  - pose proof (after_spec p o s (i_bsz p s I) (l_bsz p s o H0)) as X. cbn zeta in X.
    destruct X as [[X _]|(_ & g & k & X)]; [rewrite X in *; fields; auto|].
    destruct X as (_ & _ & _ & _ & _ & _ & X & _). congruence.
  - unfold finish in *. rewrite El in *. cbn zeta in *.
    pose proof (i_sync p s I (or_intror Epc)) as [Hs _].
    destruct ((p_numEvals p <=? nc s) || (bsz s =? 0)) eqn:E; fields; auto.
    bools. lia.
  - auto.
Qed.
