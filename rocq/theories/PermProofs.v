(** Proofs about the in-place permutation. *)
From Verif Require Import Base PermModel.
From Coq Require Import List Arith Bool Lia Permutation.
Import ListNotations.

Section P.
Context {A : Type}.

Definition settled (perm : list nat) k := nth_error perm k = Some k.
Definition unsettled (perm : list nat) n k :=
  k < n /\ exists s, nth_error perm k = Some s /\ s <> k /\ s < n.

(** Number of positions still to be moved. *)
Definition todo (perm : list nat) (n : nat) : nat :=
  length (filter (fun k => match nth_error perm k with
                           | Some s => negb (s =? k) | None => true end) (seq 0 n)).

Record outer_inv (vecs tgt : list A) (perm : list nat) (n : nat) : Prop := {
  oi_lp : length perm = n;
  oi_lv : length vecs = length tgt;
  oi_n  : n <= length vecs;
  oi_rng : forall k s, nth_error perm k = Some s -> s < n;
  oi_val : forall k s, nth_error perm k = Some s -> nth_error vecs s = nth_error tgt k;
  oi_inj : forall j k s, nth_error perm j = Some s -> nth_error perm k = Some s ->
                         j = k;
  oi_rest : forall k, n <= k -> nth_error vecs k = nth_error tgt k }.

Record inner_inv (vecs tgt : list A) (perm : list nat) (n c d : nat) (b : A) : Prop := {
  ii_lp : length perm = n;
  ii_lv : length vecs = length tgt;
  ii_n  : n <= length vecs;
  ii_c  : c < n;
  ii_d  : unsettled perm n d;
  ii_rng : forall k s, nth_error perm k = Some s -> s < n;
  ii_val : forall k s, nth_error perm k = Some s ->
             if s =? k then nth_error vecs k = nth_error tgt k
             else if s =? c then Some b = nth_error tgt k
             else nth_error vecs s = nth_error tgt k;
  ii_inj : forall j k s, unsettled perm n j -> unsettled perm n k ->
             nth_error perm j = Some s -> nth_error perm k = Some s -> j = k;
  ii_clo : forall k s, unsettled perm n k -> nth_error perm k = Some s ->
             s = c \/ unsettled perm n s;
  ii_hole : d <> c -> forall k, unsettled perm n k -> nth_error perm k <> Some d;
  ii_rest : forall k, n <= k -> nth_error vecs k = nth_error tgt k }.

Lemma filter_length_lt : forall (f g : nat -> bool) l x,
  In x l -> f x = true -> g x = false ->
  (forall y, g y = true -> f y = true) ->
  length (filter g l) < length (filter f l).
Proof.
  induction l; intros x Hin Hf Hg Himp; simpl in *; [contradiction|].
  assert (Hle : length (filter g l) <= length (filter f l)).
  { clear -Himp. induction l; simpl; auto.
    destruct (g a) eqn:G; [rewrite (Himp _ G); simpl; lia|].
    destruct (f a); simpl; lia. }
  destruct Hin as [->|Hin].
  - rewrite Hf, Hg. simpl. lia.
  - specialize (IHl x Hin Hf Hg Himp).
    destruct (g a) eqn:G; [rewrite (Himp _ G); simpl; lia|].
    destruct (f a); simpl; lia.
Qed.

Lemma todo_dec : forall perm n d,
  length perm = n -> unsettled perm n d ->
  todo (upd perm d d) n < todo perm n.
Proof.
  intros perm n d HL [Hd [s [Hs [Hne Hsn]]]].
  unfold todo.
  apply filter_length_lt with (x := d).
  - apply in_seq; lia.
  - rewrite Hs. destruct (Nat.eqb_spec s d); auto; congruence.
  - rewrite nth_error_upd_eq by lia. rewrite Nat.eqb_refl. auto.
  - intros y Hy. rewrite nth_error_upd in Hy by lia.
    destruct (Nat.eq_dec d y); subst; auto. rewrite Nat.eqb_refl in Hy. discriminate.
Qed.

Lemma todo_le : forall perm n, todo perm n <= n.
Proof.
  intros. unfold todo.
  apply Nat.le_trans with (length (seq 0 n)); [|rewrite seq_length; auto].
  generalize (seq 0 n). induction l as [|a l IH]; simpl; auto.
  destruct (nth_error perm a) as [s|]; [destruct (s =? a)|]; simpl; lia.
Qed.

Lemma unsettled_upd : forall perm n d k,
  length perm = n -> d < n -> unsettled (upd perm d d) n k ->
  k <> d /\ unsettled perm n k.
Proof.
  intros perm n d k HL Hd [Hk [s [Hs [Hne Hsn]]]].
  rewrite nth_error_upd in Hs by lia.
  destruct (Nat.eq_dec d k).
  - inversion Hs; subst; congruence.
  - split; auto. split; auto. exists s; auto.
Qed.

Lemma unsettled_upd_back : forall perm n d k,
  length perm = n -> d < n -> k <> d -> unsettled perm n k -> unsettled (upd perm d d) n k.
Proof.
  intros perm n d k HL Hd Hne [Hk [s [Hs ?]]]. split; auto. exists s. split; auto.
  rewrite nth_error_upd_neq; auto.
Qed.

Lemma cycle_correct : forall fuel vecs tgt perm n c d b,
  inner_inv vecs tgt perm n c d b -> todo perm n < fuel ->
  exists vecs' perm', cycle fuel vecs perm c d b = Some (vecs', perm') /\
    outer_inv vecs' tgt perm' n /\ todo perm' n < todo perm n /\
    (forall k, settled perm k -> settled perm' k) /\ settled perm' d /\
    (d = c -> settled perm' c).
Proof.
  induction fuel; intros vecs tgt perm n c d b I HF; [lia|].
  pose proof (ii_d _ _ _ _ _ _ _ I) as U. destruct U as [Hd [s [Hs [Hsd Hsn]]]].
  pose proof (ii_lp _ _ _ _ _ _ _ I) as HLP.
  pose proof (ii_lv _ _ _ _ _ _ _ I) as HLV.
  pose proof (ii_n _ _ _ _ _ _ _ I) as HN.
  assert (HU : unsettled perm n d) by exact (ii_d _ _ _ _ _ _ _ I).
  simpl. unfold get at 1. rewrite Hs. simpl.
  destruct (Nat.eqb_spec s c) as [->|Hsc].
  - (* close the cycle *)
    rewrite put_some by lia. simpl. rewrite put_some by lia. simpl.
    eexists _, _. split; [reflexivity|].
    assert (Hval := ii_val _ _ _ _ _ _ _ I).
    split; [|split; [apply todo_dec; auto|split; [|split]]].
    + constructor; rewrite ?length_upd; auto.
      * intros k t Hk. rewrite nth_error_upd in Hk by lia.
        destruct (Nat.eq_dec d k); [inversion Hk; subst; auto|].
        eapply ii_rng; eauto.
      * intros k t Hk. rewrite nth_error_upd in Hk by lia.
        destruct (Nat.eq_dec d k).
        { inversion Hk; subst. rewrite nth_error_upd_eq by lia.
          specialize (Hval _ _ Hs).
          destruct (Nat.eqb_spec c t); [congruence|].
          rewrite Nat.eqb_refl in Hval. auto. }
        specialize (Hval _ _ Hk).
        destruct (Nat.eqb_spec t k).
        { subst. rewrite nth_error_upd_neq; auto. }
        assert (Uk : unsettled perm n k).
        { split. rewrite <- HLP. apply nth_error_Some; congruence.
          exists t; split; auto. split; auto. eapply ii_rng; eauto. }
        destruct (Nat.eqb_spec t c).
        { subst t. exfalso. apply n0. eapply (ii_inj _ _ _ _ _ _ _ I); eauto. }
        rewrite nth_error_upd_neq; auto.
        intro; subst t. destruct (Nat.eq_dec d c); [congruence|].
        eapply (ii_hole _ _ _ _ _ _ _ I); eauto.
      * intros j k t Hj Hk.
        rewrite nth_error_upd in Hj, Hk by lia.
        assert (Hx : forall k, d <> k -> nth_error perm k = Some d ->
                      False).
        { intros x Hx1 Hx2. destruct (Nat.eq_dec d c).
          - subst d. apply Hx1. eapply (ii_inj _ _ _ _ _ _ _ I); eauto.
            split. rewrite <- HLP. apply nth_error_Some; congruence.
            exists c; repeat split; auto.
          - eapply (ii_hole _ _ _ _ _ _ _ I n0 x); auto.
            split. rewrite <- HLP. apply nth_error_Some; congruence.
            exists d; repeat split; auto. }
        destruct (Nat.eq_dec d j), (Nat.eq_dec d k); try congruence.
        { inversion Hj; subst. exfalso. eapply Hx; eauto. }
        { inversion Hk; subst. exfalso. eapply Hx; eauto. }
        assert (Hs1 : forall x, nth_error perm x = Some t -> t <> x ->
                       unsettled perm n x).
        { intros x Hx1 Hx2. split. rewrite <- HLP. apply nth_error_Some; congruence.
          exists t; repeat split; auto. eapply ii_rng; eauto. }
        destruct (Nat.eq_dec t j), (Nat.eq_dec t k); try congruence.
        { (* j settled, k unsettled pointing to j *)
          subst t. exfalso.
          destruct (ii_clo _ _ _ _ _ _ _ I k j) as [->|Uj]; auto.
          - apply n1. eapply (ii_inj _ _ _ _ _ _ _ I); eauto.
          - destruct Uj as [_ [s' [Hs' [? _]]]]. congruence. }
        { subst t. exfalso.
          destruct (ii_clo _ _ _ _ _ _ _ I j k) as [->|Uj]; auto.
          - apply n0. eapply (ii_inj _ _ _ _ _ _ _ I); eauto.
          - destruct Uj as [_ [s' [Hs' [? _]]]]. congruence. }
        eapply (ii_inj _ _ _ _ _ _ _ I); eauto.
      * intros k Hk. rewrite nth_error_upd_neq by lia. eapply ii_rest; eauto.
    + intros k Hk. unfold settled in *. rewrite nth_error_upd by lia.
      destruct (Nat.eq_dec d k); congruence.
    + unfold settled. apply nth_error_upd_eq; lia.
    + intros ->. unfold settled. apply nth_error_upd_eq; lia.
  - (* move one vector *)
    assert (Us : unsettled perm n s).
    { destruct (ii_clo _ _ _ _ _ _ _ I d s); auto. congruence. }
    assert (exists v, get vecs s = Some v) as [v Hv].
    { apply get_some. lia. }
    rewrite Hv. simpl. rewrite put_some by lia. simpl.
    rewrite put_some by lia. simpl.
    assert (I' : inner_inv (upd vecs d v) tgt (upd perm d d) n c s b).
    { constructor; rewrite ?length_upd; auto.
      - apply (ii_c _ _ _ _ _ _ _ I).
      - apply unsettled_upd_back; auto.
      - intros k t Hk. rewrite nth_error_upd in Hk by lia.
        destruct (Nat.eq_dec d k); [inversion Hk; subst; auto|].
        eapply ii_rng; eauto.
      - intros k t Hk. rewrite nth_error_upd in Hk by lia.
        destruct (Nat.eq_dec d k).
        { inversion Hk; subst. rewrite Nat.eqb_refl.
          rewrite nth_error_upd_eq by lia.
          pose proof (ii_val _ _ _ _ _ _ _ I _ _ Hs) as HV.
          destruct (Nat.eqb_spec s t); [congruence|].
          destruct (Nat.eqb_spec s c); [congruence|].
          unfold get in Hv. congruence. }
        pose proof (ii_val _ _ _ _ _ _ _ I _ _ Hk) as HV.
        destruct (Nat.eqb_spec t k).
        { subst. rewrite nth_error_upd_neq; auto. }
        destruct (Nat.eqb_spec t c); auto.
        rewrite nth_error_upd_neq; auto.
        intro; subst t. destruct (Nat.eq_dec d c); [congruence|].
        eapply (ii_hole _ _ _ _ _ _ _ I n2 k); auto.
        split. rewrite <- HLP. apply nth_error_Some; congruence.
        exists d; repeat split; auto.
      - intros j k t Uj Uk Hj Hk.
        apply unsettled_upd in Uj; auto. apply unsettled_upd in Uk; auto.
        rewrite nth_error_upd_neq in Hj, Hk by (intro; subst; tauto).
        eapply (ii_inj _ _ _ _ _ _ _ I); eauto; tauto.
      - intros k t Uk Hk.
        apply unsettled_upd in Uk; auto. destruct Uk as [Hkd Uk].
        rewrite nth_error_upd_neq in Hk by auto.
        destruct (ii_clo _ _ _ _ _ _ _ I k t) as [->|Ut]; auto.
        destruct (Nat.eq_dec t d).
        { subst t. destruct (Nat.eq_dec d c) as [|Hdc]; auto.
          exfalso. exact (ii_hole _ _ _ _ _ _ _ I Hdc k Uk Hk). }
        right. apply unsettled_upd_back; auto.
      - intros _ k Uk Hk.
        apply unsettled_upd in Uk; auto. destruct Uk as [Hkd Uk].
        rewrite nth_error_upd_neq in Hk by auto.
        apply Hkd. eapply (ii_inj _ _ _ _ _ _ _ I); eauto.
      - intros k Hk. rewrite nth_error_upd_neq by lia. eapply ii_rest; eauto. }
    assert (HT : todo (upd perm d d) n < todo perm n) by (apply todo_dec; auto).
    destruct (IHfuel _ _ _ _ _ _ _ I') as [vecs' [perm' [E [O [T [S1 [S2 S3]]]]]]].
    { lia. }
    exists vecs', perm'. split; [exact E|]. split; auto. split; [lia|].
    assert (settled (upd perm d d) d) by (unfold settled; apply nth_error_upd_eq; lia).
    split; [|split].
    + intros k Hk. apply S1. unfold settled in *. rewrite nth_error_upd by lia.
      destruct (Nat.eq_dec d k); congruence.
    + apply S1. auto.
    + intros ->. apply S1. auto.
Qed.

Lemma skip_correct : forall fuel perm n cur,
  length perm = n -> cur <= n -> n - cur < fuel ->
  exists c, skip_fixed fuel perm n cur = Some c /\ cur <= c <= n /\
    (forall k, cur <= k < c -> settled perm k) /\
    (c < n -> ~ settled perm c).
Proof.
  induction fuel; intros perm n cur HL Hc HF; [lia|].
  simpl. destruct (Nat.ltb_spec cur n).
  - destruct (get_some _ perm cur) as [k Hk]; [lia|].
    rewrite Hk. simpl. destruct (Nat.eqb_spec k cur).
    + subst. destruct (IHfuel perm (length perm) (S cur)) as [c [E [R [S1 S2]]]]; auto; try lia.
      exists c. split; auto. split; [lia|]. split; auto.
      intros k Hk'. destruct (Nat.eq_dec k cur); [subst; auto|]. apply S1; lia.
    + exists cur. repeat split; auto; try lia. intros _ Hs. unfold settled in Hs.
      unfold get in Hk. congruence.
  - exists cur. repeat split; auto; lia.
Qed.

Lemma loop_correct : forall fuel vecs tgt perm n cur,
  outer_inv vecs tgt perm n -> cur <= n -> n - cur < fuel ->
  (forall k, k < cur -> settled perm k) ->
  exists perm', permute_loop fuel vecs perm n cur = Some (tgt, perm') /\
    length perm' = n /\ (forall k, k < n -> settled perm' k).
Proof.
  induction fuel; intros vecs tgt perm n cur O Hc HF Hset; [lia|].
  cbn [permute_loop]. pose proof (oi_lp _ _ _ _ O) as HLP.
  destruct (skip_correct (S n) perm n cur) as [c [E [R [S1 S2]]]]; auto; [lia|].
  assert (Hset' : forall k, k < c -> settled perm k).
  { intros k Hk. destruct (lt_dec k cur); auto. apply S1; lia. }
  rewrite E. cbn [bind].
  destruct (Nat.leb_spec n c).
  - assert (c = n) by lia. subst c.
    exists perm. split; [|split; auto].
    f_equal. f_equal.
    apply nth_error_ext. intros k.
    destruct (lt_dec k n).
    + apply (oi_val _ _ _ _ O). apply Hset'. auto.
    + apply (oi_rest _ _ _ _ O). lia.
  - destruct (get_some _ vecs c) as [b Hb]. { pose proof (oi_n _ _ _ _ O). lia. }
    rewrite Hb. cbn [bind].
    assert (exists s, nth_error perm c = Some s) as [s Hs].
    { apply (get_some _ perm c). lia. }
    assert (Hsc : s <> c). { intro; subst. apply S2; auto. }
    destruct (cycle_correct (S n) vecs tgt perm n c c b) as
      [vecs' [perm' [EC [O' [T [P1 [P2 P3]]]]]]].
    { constructor; auto; try apply O.
      - split; auto. exists s. repeat split; auto. eapply oi_rng; eauto.
      - intros k t Hk. pose proof (oi_val _ _ _ _ O _ _ Hk) as HV.
        destruct (Nat.eqb_spec t k); [subst; auto|].
        destruct (Nat.eqb_spec t c); [subst; unfold get in Hb; congruence|auto].
      - intros j k t _ _. apply (oi_inj _ _ _ _ O).
      - intros k t [Hk [t' [Ht' [Hne _]]]] Ht. right.
        assert (t < n) by (eapply oi_rng; eauto).
        split; auto.
        destruct (get_some _ perm t) as [u Hu]; [lia|].
        exists u. split; auto. unfold get in Hu.
        split; [|eapply oi_rng; eauto].
        intro; subst u. assert (k = t) by (eapply (oi_inj _ _ _ _ O); eauto).
        congruence. }
    { pose proof (todo_le perm n). lia. }
    rewrite EC. cbn [bind fst snd].
    apply (IHfuel vecs' tgt perm' n (S c)); auto; try lia.
    intros k Hk. destruct (Nat.eq_dec k c); [subst; auto|]. apply P1, Hset'. lia.
Qed.

Lemma permute_vecs_gathers : forall (vecs dst rest : list A) (perm : list nat) n,
  is_perm perm n -> length vecs = n ->
  gathered vecs perm dst ->
  permute_vecs (vecs ++ rest) n perm = Some (dst ++ rest).
Proof.
  intros vecs dst rest perm n HP HL [HD HG].
  pose proof (is_perm_length _ _ HP) as HPL.
  unfold permute_vecs.
  replace (firstn n perm) with perm by (rewrite <- HPL; symmetry; apply firstn_all).
  destruct (loop_correct (S n) (vecs ++ rest) (dst ++ rest) perm n 0)
    as [perm' [E [L S]]]; try lia.
  - constructor; rewrite ?app_length; auto; try lia.
    + intros k s Hk. eapply is_perm_in; eauto. eapply nth_error_In; eauto.
    + intros k s Hk. destruct (HG _ _ Hk).
      assert (k < length perm) by (apply nth_error_Some; congruence).
      rewrite !nth_error_app1 by lia. auto.
    + intros. eapply is_perm_inj; eauto.
    + intros k Hk. rewrite !nth_error_app2 by lia. f_equal. lia.
  - rewrite E. cbn [bind snd fst].
    assert (check perm' n = true).
    { unfold check. apply forallb_forall. intros k Hk. apply in_seq in Hk.
      unfold get. rewrite S by lia. apply Nat.eqb_refl. }
    rewrite H. auto.
Qed.

(** Compaction into a separate array. *)
Lemma compact_copy_gathers : forall (perm : list nat) (vecs work : list A) i,
  (forall k, In k perm -> k < length vecs) ->
  i + length perm <= length work ->
  exists w, compact_copy vecs perm i work = Some w /\ length w = length work /\
    (forall j k, nth_error perm j = Some k -> nth_error w (i + j) = nth_error vecs k) /\
    (forall j, j < i \/ i + length perm <= j -> nth_error w j = nth_error work j).
Proof.
  induction perm as [|k t IH]; intros vecs work i HR HL; simpl in *.
  - exists work. repeat split; auto. intros j k H. destruct j; discriminate.
  - destruct (get_some _ vecs k) as [v Hv]; [apply HR; auto|].
    rewrite Hv. simpl. rewrite put_some by lia. simpl.
    destruct (IH vecs (upd work i v) (S i)) as [w [E [L [G F]]]].
    { intros; apply HR; auto. } { rewrite length_upd; lia. }
    rewrite length_upd in L.
    exists w. split; auto. split; auto. split.
    + intros [|j] k' Hk; simpl in Hk.
      * inversion Hk; subst. rewrite Nat.add_0_r. rewrite F by lia.
        rewrite nth_error_upd_eq by lia. symmetry; auto.
      * replace (i + S j) with (S i + j) by lia. auto.
    + intros j Hj. rewrite F by lia. apply nth_error_upd_neq. lia.
Qed.

(** In-place compaction is right when no copy overtakes a later read:
    strictly increasing indices. *)
Lemma compact_inplace_gathers : forall (perm : list nat) (buf orig : list A) i,
  (forall j k, nth_error perm j = Some k -> i + j <= k < length buf) ->
  (forall j k l, nth_error perm j = Some k -> l < j -> i + l < k) ->
  length buf = length orig ->
  (forall k, i <= k -> nth_error buf k = nth_error orig k) ->
  exists w, compact_inplace buf perm i = Some w /\ length w = length orig /\
    (forall j k, nth_error perm j = Some k -> nth_error w (i + j) = nth_error orig k) /\
    (forall j, i + length perm <= j -> nth_error w j = nth_error orig j) /\
    (forall j, j < i -> nth_error w j = nth_error buf j).
Proof.
  induction perm as [|k t IH]; intros buf orig i HR HM HL HE; simpl in *.
  - exists buf. repeat split; auto.
    + intros j k H. destruct j; discriminate.
    + intros j Hj. apply HE. lia.
  - pose proof (HR 0 k eq_refl) as Hk.
    destruct (get_some _ buf k) as [v Hv]; [lia|].
    rewrite Hv. simpl. rewrite put_some by lia. simpl.
    destruct (IH (upd buf i v) orig (S i)) as [w [E [L [G [F B]]]]].
    + intros j k' H. specialize (HR (S j) k' H). rewrite length_upd. lia.
    + intros j k' l H Hl. specialize (HM (S j) k' (S l) H). lia.
    + rewrite length_upd; auto.
    + intros k' Hk'. rewrite nth_error_upd_neq by lia. apply HE; lia.
    + exists w. split; auto. split; auto. split; [|split].
      * intros [|j] k' Hj; simpl in Hj.
        -- inversion Hj; subst. rewrite Nat.add_0_r. rewrite B by lia.
           rewrite nth_error_upd_eq by lia. unfold get in Hv. rewrite <- Hv.
           apply HE. lia.
        -- replace (i + S j) with (S i + j) by lia. auto.
      * intros j Hj. apply F. lia.
      * intros j Hj. rewrite B by lia. apply nth_error_upd_neq. lia.
Qed.

End P.
