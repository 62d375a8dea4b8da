(** Proofs about the selection of the block. *)
From Verif Require Import Base Values PermModel SelectModel.
From Coq Require Import List Arith ZArith Bool Lia Permutation.
Import ListNotations.

Lemma unconv_iff : forall f, is_unconverged f = true <-> f = UNCONVERGED.
Proof. destruct f; simpl; split; intros; congruence. Qed.

Lemma bind_some : forall A B (x : option A) (f : A -> option B) r,
  bind x f = Some r -> exists a, x = Some a /\ f a = Some r.
Proof. intros A B [a|] f r H; simpl in H; [eauto|discriminate]. Qed.

Section S.
Context {N X : Type}.
Variable q : sel_in.
Variable verdict : nat -> nat -> flag -> N -> flag * N.
Variable resid : nat -> nat -> N.
Variable vec : nat -> X.
Variable side : nat -> nat -> bool.
Variable floor : N -> N.
(** Positions whose omission must be justified. *)
Variable P : nat -> Prop.

Notation B := (q_basisSize q).
Notation cap := (q_cap q).

Record inv (s : @sel N X) (blki rem : nat) : Prop := {
  i_flags : length (s_flags s) = B;
  i_bnorms : length (s_bnorms s) = B;
  i_iev : cap <= length (s_iev s);
  i_norms : cap <= length (s_norms s);
  i_xs : cap <= length (s_xs s);
  i_next : s_next s <= B;
  i_bs : s_bs s <= blki;
  i_cap : blki + rem <= cap;
  i_max : (s_max s <= Z.of_nat cap)%Z;
  i_rc : (0 <= s_rc s)%Z;
  i_lim : (Z.of_nat cap <= q_numEvals q + 1 - q_numConverged q ->
           Z.of_nat (s_bs s) <= s_max s <= q_numEvals q + 1 - s_rc s - q_numConverged q)%Z;
  i_pre : forall j, j < s_bs s -> exists p nm,
     nth_error (s_iev s) j = Some p /\ p < s_next s /\
     nth_error (s_flags s) p = Some UNCONVERGED /\
     nth_error (s_norms s) j = Some nm /\ nth_error (s_bnorms s) p = Some nm /\
     nth_error (s_xs s) j = Some (vec p);
  i_inc : forall j j' p p', j < j' -> j' < s_bs s ->
     nth_error (s_iev s) j = Some p -> nth_error (s_iev s) j' = Some p' -> p < p';
  i_blk : forall j, blki <= j < blki + rem -> exists p,
     nth_error (s_iev s) j = Some p /\ s_next s <= p < B /\ nth_error (s_xs s) j = Some (vec p);
  i_binc : forall j j' p p', blki <= j -> j < j' -> j' < blki + rem ->
     nth_error (s_iev s) j = Some p -> nth_error (s_iev s) j' = Some p' -> p < p';
  i_seen : forall p, p < s_next s -> P p -> nth_error (s_flags s) p = Some UNCONVERGED ->
     (exists j, j < s_bs s /\ nth_error (s_iev s) j = Some p) \/ (exists r, side r p = true);
  i_gap : forall p j p', blki <= j < blki + rem -> nth_error (s_iev s) j = Some p' ->
     s_next s <= p -> p < p' -> P p -> nth_error (s_flags s) p = Some UNCONVERGED ->
     exists j', blki <= j' < j /\ nth_error (s_iev s) j' = Some p }.

(** Stage 1 of a round. *)
Lemma check_block_ok : forall r flags iev cnt norms j,
  (forall i, j <= i < j + cnt -> exists p, nth_error iev i = Some p /\ p < length flags) ->
  j + cnt <= length norms ->
  exists fb norms', check_block verdict r flags iev norms j cnt = Some (fb, norms') /\
    length fb = cnt /\ length norms' = length norms /\
    (forall i, i < j -> nth_error norms' i = nth_error norms i).
Proof.
  induction cnt as [|c IH]; intros norms j H L; cbn [check_block].
  - exists [], norms. auto.
  - destruct (H j ltac:(lia)) as (p & E & Lp). unfold get at 1. rewrite E. cbn [bind].
    destruct (get_some _ flags p Lp) as [f ->]. cbn [bind].
    destruct (get_some _ norms j ltac:(lia)) as [nm ->]. cbn [bind].
    rewrite put_some by lia. cbn [bind].
    destruct (IH (upd norms j (snd (verdict r p f nm))) (S j)) as (fb & n' & -> & A1 & A2 & A3).
    + intros i Hi. apply H. lia.
    + rewrite length_upd. lia.
    + cbn [bind fst snd]. exists (fst (verdict r p f nm) :: fb), n'.
      split; [reflexivity|]. simpl. split; [auto|]. rewrite length_upd in A2. split; [auto|].
      intros i Hi. rewrite A3 by lia. apply nth_error_upd_neq. lia.
Qed.

(** Stage 2: the walk over the block. *)
Lemma inner_ok : forall r fb blki s, inv s blki (length fb) ->
  exists s', inner q side r fb blki s = Some s' /\
    inv s' (s_bs s') 0 /\ s_next s <= s_next s' /\
    (s_rc s <= s_rc s')%Z /\ (s_max s' <= s_max s)%Z /\
    (fb <> [] -> (Z.of_nat (s_bs s) < s_max s)%Z -> s_next s < s_next s') /\
    (s_rc s <= Z.max 0 (q_remained q) -> s_rc s' <= Z.max 0 (q_remained q))%Z.
Proof.
  induction fb as [|f fs IH]; intros blki s I; cbn [inner].
  - exists s. split; [auto|]. split; [|repeat split; auto; try lia; congruence].
    destruct I. constructor; auto; try lia; intros; lia.
  - destruct (Z.ltb_spec (Z.of_nat (s_bs s)) (s_max s)) as [Lm|Lm].
    2:{ exists s. split; [auto|]. split; [|repeat split; auto; try lia].
        destruct I. constructor; auto; try lia; intros; lia. }
    destruct I as [If Ib Ii In Ix Inx Ibs Icap Imx Irc Ilim Ipre Iinc Iblk Ibinc Iseen Igap].
    cbn [length] in *.
    destruct (Iblk blki ltac:(lia)) as (p & Ep & Rp & Xp).
    unfold get at 1. rewrite Ep. cbn [bind].
    destruct (get_some _ (s_norms s) blki ltac:(lia)) as [nm Enm]. rewrite Enm. cbn [bind].
    rewrite (put_some _ (s_flags s)) by lia. cbn [bind].
    rewrite (put_some _ (s_bnorms s)) by lia. cbn [bind].
    (* facts shared by the four branches *)
    assert (Later : forall j p', blki < j < blki + S (length fs) ->
              nth_error (s_iev s) j = Some p' -> p < p').
    { intros j p' Hj E. eapply (Ibinc blki j); eauto; lia. }
    assert (Fl : forall p', p' <> p -> nth_error (upd (s_flags s) p f) p' = nth_error (s_flags s) p')
      by (intros; apply nth_error_upd_neq; auto).
    assert (Fp : nth_error (upd (s_flags s) p f) p = Some f) by (apply nth_error_upd_eq; lia).
    assert (Bl : forall p', p' <> p -> nth_error (upd (s_bnorms s) p nm) p' = nth_error (s_bnorms s) p')
      by (intros; apply nth_error_upd_neq; auto).
    assert (Bp : nth_error (upd (s_bnorms s) p nm) p = Some nm) by (apply nth_error_upd_eq; lia).
    (* a pair that is not taken *)
    assert (Skip : forall rc mx, (0 <= rc)%Z -> (mx <= Z.of_nat cap)%Z ->
       (Z.of_nat cap <= q_numEvals q + 1 - q_numConverged q ->
          Z.of_nat (s_bs s) <= mx <= q_numEvals q + 1 - rc - q_numConverged q)%Z ->
       (f <> UNCONVERGED \/ side r p = true) ->
       inv (mkSel (upd (s_flags s) p f) (upd (s_bnorms s) p nm) (s_iev s) (s_norms s) (s_xs s)
              (s_bs s) rc mx (S p)) (S blki) (length fs)).
    { intros rc mx Hrc Hmx Hlim Hside. constructor; cbn [s_flags s_bnorms s_iev s_norms s_xs s_bs s_rc s_max s_next];
        rewrite ?length_upd; auto; try lia.
      - intros j Hj. destruct (Ipre j Hj) as (p0 & n0 & C1 & C2 & C3 & C4 & C5 & C6).
        exists p0, n0. rewrite Fl, Bl by lia. repeat split; auto; lia.
      - intros j Hj. destruct (Iblk j ltac:(lia)) as (p0 & C1 & C2 & C3).
        exists p0. repeat split; auto; try lia. pose proof (Later j p0 ltac:(lia) C1). lia.
      - intros j j' p0 p0' H1 H2 H3. apply Ibinc; lia.
      - intros p0 Hp0 HP HU. destruct (Nat.eq_dec p0 p) as [->|Ne].
        + rewrite Fp in HU. destruct Hside as [C|C]; [congruence|right; eauto].
        + rewrite Fl in HU by auto. destruct (le_lt_dec (s_next s) p0) as [Ge|Lt].
          * destruct (Igap p0 blki p ltac:(lia) Ep Ge ltac:(lia) HP HU) as (j' & C & _). lia.
          * apply Iseen; auto.
      - intros p0 j p0' Hj Ej Hn Hl HP HU. rewrite Fl in HU by lia.
        destruct (Igap p0 j p0' ltac:(lia) Ej ltac:(lia) Hl HP HU) as (j' & C1 & C2).
        exists j'. split; [|auto]. destruct (Nat.eq_dec j' blki) as [->|]; [|lia].
        assert (p0 = p) by congruence. lia. }
    (* a pair that enters the block *)
    assert (Take : f = UNCONVERGED ->
       inv (mkSel (upd (s_flags s) p f) (upd (s_bnorms s) p nm) (upd (s_iev s) (s_bs s) p)
              (upd (s_norms s) (s_bs s) nm) (upd (s_xs s) (s_bs s) (vec p))
              (S (s_bs s)) (s_rc s) (s_max s) (S p)) (S blki) (length fs)).
    { intros Hf. constructor; cbn [s_flags s_bnorms s_iev s_norms s_xs s_bs s_rc s_max s_next];
        rewrite ?length_upd; auto; try lia.
      - intros j Hj. destruct (Nat.eq_dec j (s_bs s)) as [->|Ne].
        + exists p, nm. rewrite !nth_error_upd_eq by lia. subst f. repeat split; auto.
        + rewrite !(nth_error_upd_neq _ _ (s_bs s) j) by auto.
          destruct (Ipre j ltac:(lia)) as (p0 & n0 & C1 & C2 & C3 & C4 & C5 & C6).
          exists p0, n0. rewrite Fl, Bl by lia. repeat split; auto; lia.
      - intros j j' p0 p0' H1 H2 E1 E2.
        rewrite nth_error_upd_neq in E1 by lia.
        destruct (Nat.eq_dec j' (s_bs s)) as [->|Ne].
        + rewrite nth_error_upd_eq in E2 by lia. injection E2 as <-.
          destruct (Ipre j ltac:(lia)) as (p1 & n1 & C1 & C2 & _).
          assert (p1 = p0) by congruence. lia.
        + rewrite nth_error_upd_neq in E2 by lia. eapply (Iinc j j'); eauto; lia.
      - intros j Hj. destruct (Iblk j ltac:(lia)) as (p0 & C1 & C2 & C3).
        exists p0. rewrite !nth_error_upd_neq by lia. repeat split; auto; try lia.
        pose proof (Later j p0 ltac:(lia) C1). lia.
      - intros j j' p0 p0' H1 H2 H3 E1 E2. rewrite nth_error_upd_neq in E1, E2 by lia.
        eapply (Ibinc j j'); eauto; lia.
      - intros p0 Hp0 HP HU. destruct (Nat.eq_dec p0 p) as [->|Ne].
        + left. exists (s_bs s). split; [lia|]. apply nth_error_upd_eq. lia.
        + rewrite Fl in HU by auto. destruct (le_lt_dec (s_next s) p0) as [Ge|Lt].
          * destruct (Igap p0 blki p ltac:(lia) Ep Ge ltac:(lia) HP HU) as (j' & C & _). lia.
          * destruct (Iseen p0 Lt HP HU) as [(j & Hj & Ej)|C]; [left|right; auto].
            exists j. split; [lia|]. rewrite nth_error_upd_neq by lia. auto.
      - intros p0 j p0' Hj Ej Hn Hl HP HU. rewrite Fl in HU by lia.
        rewrite nth_error_upd_neq in Ej by lia.
        destruct (Igap p0 j p0' ltac:(lia) Ej ltac:(lia) Hl HP HU) as (j' & C1 & C2).
        exists j'. destruct (Nat.eq_dec j' blki) as [->|]; [assert (p0 = p) by congruence; lia|].
        split; [lia|]. rewrite nth_error_upd_neq by lia. auto. }
    destruct (side r p) eqn:Es.
    { destruct (IH (S blki) _ (Skip (s_rc s) (s_max s) Irc Imx Ilim (or_intror eq_refl)))
        as (s' & E & J1 & J2 & J3 & J4 & J5 & J6).
      exists s'. split; [exact E|]. split; [exact J1|]. cbn [s_next s_rc s_max s_bs] in *.
      repeat split; auto; try lia. }
    destruct (negb (is_unconverged f) && (s_rc s <? q_remained q)%Z &&
        ((Z.of_nat p <? q_numEvals q - q_numLocked q)%Z || one_sided (q_target q))) eqn:Ec.
    { apply andb_true_iff in Ec. destruct Ec as [Ec _]. apply andb_true_iff in Ec.
      destruct Ec as [Ec1 Ec2]. apply Z.ltb_lt in Ec2.
      assert (Nf : f <> UNCONVERGED) by (intros ->; discriminate).
      destruct (IH (S blki) _ (Skip (s_rc s + 1)%Z
          (Z.min (s_max s) (q_numEvals q + 1 - (s_rc s + 1) - q_numConverged q))
          ltac:(lia) ltac:(lia) ltac:(lia) (or_introl Nf)))
        as (s' & E & J1 & J2 & J3 & J4 & J5 & J6).
      exists s'. split; [exact E|]. split; [exact J1|]. cbn [s_next s_rc s_max s_bs] in *.
      repeat split; auto; try lia. }
    destruct (is_unconverged f) eqn:Eu.
    { apply unconv_iff in Eu.
      rewrite (put_some _ (s_norms s)) by lia. cbn [bind].
      rewrite (put_some _ (s_iev s)) by lia. cbn [bind].
      unfold get at 1. rewrite Xp. cbn [bind].
      rewrite (put_some _ (s_xs s)) by lia. cbn [bind].
      destruct (IH (S blki) _ (Take Eu)) as (s' & E & J1 & J2 & J3 & J4 & J5 & J6).
      exists s'. split; [exact E|]. split; [exact J1|]. cbn [s_next s_rc s_max s_bs] in *.
      repeat split; auto; try lia. }
    { assert (Nf : f <> UNCONVERGED) by (intros ->; discriminate).
      destruct (IH (S blki) _ (Skip (s_rc s) (s_max s) Irc Imx Ilim (or_introl Nf)))
        as (s' & E & J1 & J2 & J3 & J4 & J5 & J6).
      exists s'. split; [exact E|]. split; [exact J1|]. cbn [s_next s_rc s_max s_bs] in *.
      repeat split; auto; try lia. }
Qed.

(** Stage 3: the next candidates. *)
Lemma find_next_ok : forall flags mx cnt i blki iev,
  i + cnt <= length flags ->
  (mx <= Z.of_nat (length iev))%Z ->
  exists iev' blki' e,
    find_next flags mx cnt i blki iev = Some (iev', blki') /\
    length iev' = length iev /\ blki <= blki' /\ i <= e <= i + cnt /\
    (Z.of_nat blki' <= Z.max (Z.of_nat blki) mx)%Z /\
    (e = i + cnt \/ (mx <= Z.of_nat blki')%Z) /\
    (forall j, j < blki -> nth_error iev' j = nth_error iev j) /\
    (forall j, blki <= j < blki' -> exists p, nth_error iev' j = Some p /\ i <= p < e /\
        nth_error flags p = Some UNCONVERGED) /\
    (forall j j' p p', blki <= j -> j < j' -> j' < blki' ->
        nth_error iev' j = Some p -> nth_error iev' j' = Some p' -> p < p') /\
    (forall p, i <= p < e -> nth_error flags p = Some UNCONVERGED ->
        exists j, blki <= j < blki' /\ nth_error iev' j = Some p).
Proof.
  induction cnt as [|c IH]; intros i blki iev L1 L2; cbn [find_next].
  - exists iev, blki, i. repeat split; auto; try lia; intros; lia.
  - destruct (Z.ltb_spec (Z.of_nat blki) mx) as [Lm|Lm].
    2:{ exists iev, blki, i. repeat split; auto; try lia; intros; lia. }
    destruct (get_some _ flags i ltac:(lia)) as [f Ef]. rewrite Ef. cbn [bind].
    unfold get in Ef.
    destruct (is_unconverged f) eqn:Eu.
    + apply unconv_iff in Eu. subst f.
      rewrite put_some by lia. cbn [bind].
      destruct (IH (S i) (S blki) (upd iev blki i) ltac:(lia) ltac:(rewrite length_upd; lia))
        as (iev' & b' & e & -> & A1 & A2 & A3 & A4 & A5 & A6 & A7 & A8 & A9).
      rewrite length_upd in A1.
      exists iev', b', e. split; [reflexivity|]. repeat split; auto; try lia.
      * intros j Hj. rewrite A6 by lia. apply nth_error_upd_neq. lia.
      * intros j Hj. destruct (Nat.eq_dec j blki) as [->|Ne].
        -- exists i. split; [|split; [lia|auto]].
           rewrite A6 by lia. apply nth_error_upd_eq. lia.
        -- destruct (A7 j ltac:(lia)) as (p & C1 & C2 & C3). exists p. repeat split; auto; lia.
      * intros j j' p p' H1 H2 H3 E1 E2. destruct (Nat.eq_dec j blki) as [->|Ne].
        -- rewrite A6 in E1 by lia. rewrite nth_error_upd_eq in E1 by lia. injection E1 as <-.
           destruct (A7 j' ltac:(lia)) as (p1 & C1 & C2 & C3).
           assert (p1 = p') by congruence. lia.
        -- eapply (A8 j j'); eauto; lia.
      * intros p Hp HU. destruct (Nat.eq_dec p i) as [->|Ne].
        -- exists blki. split; [lia|]. rewrite A6 by lia. apply nth_error_upd_eq. lia.
        -- destruct (A9 p ltac:(lia) HU) as (j & C1 & C2). exists j. split; [lia|auto].
    + destruct (IH (S i) blki iev ltac:(lia) ltac:(lia))
        as (iev' & b' & e & -> & A1 & A2 & A3 & A4 & A5 & A6 & A7 & A8 & A9).
      exists iev', b', e. split; [reflexivity|]. repeat split; auto; try lia.
      * intros j Hj. destruct (A7 j Hj) as (p & C1 & C2 & C3). exists p. repeat split; auto; lia.
      * intros p Hp HU. destruct (Nat.eq_dec p i) as [->|Ne].
        -- rewrite Ef in HU. injection HU as ->. discriminate.
        -- apply A9; auto. lia.
Qed.

Lemma compute_block_ok : forall r iev cnt norms xs j,
  (forall i, j <= i < j + cnt -> exists p, nth_error iev i = Some p) ->
  j + cnt <= length norms -> j + cnt <= length xs ->
  exists norms' xs', compute_block resid vec r iev norms xs j cnt = Some (norms', xs') /\
    length norms' = length norms /\ length xs' = length xs /\
    (forall i, i < j -> nth_error norms' i = nth_error norms i /\
                        nth_error xs' i = nth_error xs i) /\
    (forall i p, j <= i < j + cnt -> nth_error iev i = Some p ->
       nth_error xs' i = Some (vec p) /\ nth_error norms' i = Some (resid r p)).
Proof.
  induction cnt as [|c IH]; intros norms xs j H L1 L2; cbn [compute_block].
  - exists norms, xs. repeat split; auto; intros; lia.
  - destruct (H j ltac:(lia)) as (p & E). unfold get at 1. rewrite E. cbn [bind].
    rewrite !put_some by lia. cbn [bind].
    destruct (IH (upd norms j (resid r p)) (upd xs j (vec p)) (S j))
      as (n' & x' & -> & A1 & A2 & A3 & A4); rewrite ?length_upd; try lia.
    { intros i Hi. apply H. lia. }
    rewrite length_upd in A1, A2. exists n', x'. split; [reflexivity|]. repeat split; auto.
    + intros. destruct (A3 i ltac:(lia)) as [-> _]. apply nth_error_upd_neq. lia.
    + intros. destruct (A3 i ltac:(lia)) as [_ ->]. apply nth_error_upd_neq. lia.
    + destruct (Nat.eq_dec i j) as [->|Ne].
      * destruct (A3 j ltac:(lia)) as [_ ->]. assert (p0 = p) by congruence. subst p0.
        apply nth_error_upd_eq. lia.
      * apply A4; auto. lia.
    + destruct (Nat.eq_dec i j) as [->|Ne].
      * destruct (A3 j ltac:(lia)) as [-> _]. assert (p0 = p) by congruence. subst p0.
        apply nth_error_upd_eq. lia.
      * apply A4; auto. lia.
Qed.

Lemma floor_block_ok : forall cnt norms i, i + cnt <= length norms ->
  exists norms', floor_block floor norms i cnt = Some norms' /\ length norms' = length norms /\
    (forall j, j < i -> nth_error norms' j = nth_error norms j).
Proof.
  induction cnt as [|c IH]; intros norms i L; cbn [floor_block].
  - exists norms. auto.
  - destruct (get_some _ norms i ltac:(lia)) as [nm ->]. cbn [bind].
    rewrite put_some by lia. cbn [bind].
    destruct (IH (upd norms i (floor nm)) (S i)) as (n' & -> & A1 & A2); [rewrite length_upd; lia|].
    rewrite length_upd in A1. exists n'. split; [reflexivity|]. split; [auto|].
    intros j Hj. rewrite A2 by lia. apply nth_error_upd_neq. lia.
Qed.

(** Whole rounds. *)
Lemma rounds_ok : forall fuel r bns s,
  inv s (s_bs s) bns ->
  (s_rc s <= Z.max 0 (q_remained q))%Z ->
  B - s_next s + (if (0 <? bns) && (Z.of_nat (s_bs s) <? s_max s)%Z then 0 else 1) < fuel ->
  exists s', rounds q verdict resid vec side floor fuel r bns s = Some s' /\
    inv s' (s_bs s') 0 /\ (s_rc s' <= Z.max 0 (q_remained q))%Z /\
    (* nothing stops the search before it is over *)
    ((s_max s' <= Z.of_nat (s_bs s'))%Z \/ (q_remained q <= s_rc s')%Z \/
     forall p, s_next s' <= p < B -> nth_error (s_flags s') p <> Some UNCONVERGED).
Proof.
  induction fuel as [|fu IH]; intros r bns s I Hrc Hf; [lia|].
  cbn [rounds].
  pose proof (i_cap _ _ _ I) as Icap.
  destruct (Nat.leb_spec bns cap) as [_|C]; [|lia].
  destruct (check_block_ok r (s_flags s) (s_iev s) bns (s_norms s) (s_bs s))
    as (fb & nm & E & A1 & A2 & A3).
  { intros i Hi. destruct (i_blk _ _ _ I i Hi) as (p & C1 & C2 & _). exists p.
    rewrite (i_flags _ _ _ I). split; [auto|lia]. }
  { pose proof (i_norms _ _ _ I). lia. }
  rewrite E. cbn [bind fst snd].
  set (s0 := mkSel (s_flags s) (s_bnorms s) (s_iev s) nm (s_xs s) (s_bs s) (s_rc s) (s_max s) (s_next s)).
  assert (I0 : inv s0 (s_bs s) (length fb)).
  { rewrite A1. destruct I. constructor; cbn; auto; try lia.
    intros j Hj. rewrite A3 by auto. auto. }
  destruct (inner_ok r fb (s_bs s) s0 I0) as (s1 & E1 & I1 & M1 & M2 & M3 & M4 & M5).
  unfold s0 at 2 3 in M4. cbn [s_bs s_max s_next s_rc] in *.
  unfold s0 in M1, M2, M3, M5. cbn [s_bs s_max s_next s_rc] in *.
  rewrite E1. cbn [bind]. clear E E1 I0 I A2 A3.
  pose proof I1 as [If Ib Ii In Ix Inx Ibs Ic1 Imx Irc Ilim Ipre Iinc Iblk Ibinc Iseen Igap].
  clear Iblk Ibinc Igap.
  destruct (find_next_ok (s_flags s1) (s_max s1) (B - s_next s1) (s_next s1) (s_bs s1) (s_iev s1))
    as (iev & blki & e & -> & F1 & F2 & F3 & F4 & F5 & F6 & F7 & F8 & F9); try lia.
  cbn [bind fst snd]. replace (s_next s1 + (B - s_next s1)) with B in * by lia.
  assert (Pre2 : forall nm' xs', length nm' = length (s_norms s1) -> length xs' = length (s_xs s1) ->
     (forall i, i < s_bs s1 -> nth_error nm' i = nth_error (s_norms s1) i /\
                               nth_error xs' i = nth_error (s_xs s1) i) ->
     forall rem,
     (forall i p, s_bs s1 <= i < s_bs s1 + rem -> nth_error iev i = Some p -> nth_error xs' i = Some (vec p)) ->
     rem <= blki - s_bs s1 -> s_bs s1 + rem <= cap ->
     inv (mkSel (s_flags s1) (s_bnorms s1) iev nm' xs' (s_bs s1) (s_rc s1) (s_max s1) (s_next s1))
         (s_bs s1) rem).
  { intros nm' xs' L1 L2 Same rem New Hrem Hcap.
    constructor; cbn [s_flags s_bnorms s_iev s_norms s_xs s_bs s_rc s_max s_next]; auto; try lia.
    - intros j Hj. destruct (Ipre j Hj) as (p & n0 & C1 & C2 & C3 & C4 & C5 & C6).
      destruct (Same j Hj) as [-> ->]. rewrite F6 by auto. exists p, n0. auto 10.
    - intros j j' p p' H1 H2 K1 K2. rewrite F6 in K1, K2 by lia. eapply (Iinc j j'); eauto.
    - intros j Hj. destruct (F7 j ltac:(lia)) as (p & C1 & C2 & C3).
      exists p. split; [auto|]. split; [lia|]. apply New; auto.
    - intros j j' p p' H1 H2 H3. apply F8; lia.
    - intros p Hp HP HU. destruct (Iseen p Hp HP HU) as [(j & C1 & C2)|C]; [left|right; auto].
      exists j. rewrite F6 by auto. auto.
    - intros p j p' Hj Ej Hn Hl HP HU.
      destruct (F7 j ltac:(lia)) as (p1 & C1 & C2 & C3). assert (p1 = p') by congruence. subst p1.
      destruct (F9 p ltac:(lia) HU) as (j' & D1 & D2).
      exists j'. split; [|auto]. split; [lia|].
      destruct (lt_eq_lt_dec j' j) as [[C|C]|C]; [auto| |].
      + subst j'. assert (p = p') by congruence. lia.
      + pose proof (F8 j j' p' p ltac:(lia) C ltac:(lia) Ej D2). lia. }
  destruct (Nat.eqb_spec blki (s_bs s1)) as [Eb|Nb]; cbn [orb].
  { eexists. split; [reflexivity|]. cbn [s_bs s_rc s_max s_next s_flags].
    split; [apply Pre2; auto; try lia; intros; lia|].
    split; [auto|].
    destruct F5 as [F5|F5]; [|left; lia].
    right. right. intros p Hp HU. destruct (F9 p ltac:(lia) HU) as (j & C & _). lia. }
  destruct (Z.leb_spec (q_remained q) (s_rc s1)) as [Er|Er].
  { eexists. split; [reflexivity|]. cbn [s_bs s_rc s_max s_next s_flags].
    split; [apply Pre2; auto; try lia; intros; lia|]. split; [auto|]. right. left. auto. }
  assert (Lm : (Z.of_nat (s_bs s1) < s_max s1)%Z) by lia.
  destruct (compute_block_ok r iev (blki - s_bs s1) (s_norms s1) (s_xs s1) (s_bs s1))
    as (nm1 & xs1 & -> & C1 & C2 & C3 & C4); try lia.
  { intros i Hi. destruct (F7 i ltac:(lia)) as (p & D & _). eauto. }
  cbn [bind fst snd].
  destruct (floor_block_ok (blki - s_bs s1 - s_bs s1) nm1 (s_bs s1)) as (nm2 & -> & D1 & D2); [lia|].
  cbn [bind].
  apply IH; cbn [s_bs s_rc s_max s_next].
  - apply Pre2; try lia.
    + intros i Hi. destruct (C3 i Hi) as [G1 G2]. rewrite D2 by auto. auto.
    + intros i p Hi Ei. destruct (C4 i p ltac:(lia) Ei) as [G1 _]. auto.
  - lia.
  - destruct (Nat.ltb_spec 0 (blki - s_bs s1)); [|lia].
    destruct (Z.ltb_spec (Z.of_nat (s_bs s1)) (s_max s1)); [|lia]. cbn [andb].
    destruct (F7 (s_bs s1) ltac:(lia)) as (p & _ & Hp & _).
    destruct (Nat.ltb_spec 0 bns) as [Hb|Hb].
    + destruct (Z.ltb_spec (Z.of_nat (s_bs s)) (s_max s)) as [Hm|Hm]; cbn [andb] in Hf.
      * assert (s_next s < s_next s1) by (apply M4; auto; intros ->; simpl in A1; lia). lia.
      * lia.
    + cbn [andb] in Hf. lia.
Qed.

End S.
