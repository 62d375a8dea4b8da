(** Proofs about the ordering of the Ritz pairs. *)
From Verif Require Import Base Values PermModel PermProofs RitzModel.
From Coq Require Import List Arith Bool Lia Permutation Sorted.
Import ListNotations.

(** ** Specification: what "in target order" means. *)
Section Spec.
Context {V : Type} (o : vops V).
Definition ascending (l : list V) := StronglySorted (fun a b => vleb o a b = true) l.
Definition descending (l : list V) := StronglySorted (fun a b => vleb o b a = true) l.
Definition target_order (t : target) (s : V) (l : list V) : Prop :=
  match t with
  | smallest => ascending l
  | largest => descending l
  | closest_geq => exists near far, l = near ++ far /\
        Forall (fun x => vleb o s x = true) near /\
        Forall (fun x => vleb o s x = false) far /\ ascending near
  | closest_leq => exists near far, l = near ++ far /\
        Forall (fun x => vleb o x s = true) near /\
        Forall (fun x => vleb o x s = false) far /\ descending near
  | closest_abs =>
      StronglySorted (fun a b => vleb o (vdist o s a) (vdist o s b) = true) l
  | largest_abs =>
      StronglySorted (fun a b => vleb o (vdist o s b) (vdist o s a) = true) l
  end.
End Spec.

Section R.
Context {V : Type} (o : vops V) (L : vlaws o).

Lemma SS_map_nth : forall (R : V -> V -> Prop) (l : list V) d,
  StronglySorted R l -> forall i j, i < j < length l -> R (nth i l d) (nth j l d).
Proof.
  induction l; intros d H i j Hij; simpl in *; [lia|].
  inversion H; subst. destruct i.
  - destruct j; [lia|]. rewrite Forall_forall in H3. apply H3. apply nth_In. lia.
  - destruct j; [lia|]. apply IHl; auto. lia.
Qed.

Lemma SS_impl_rev : forall (R : V -> V -> Prop) l,
  StronglySorted R l -> StronglySorted (fun a b => R b a) (rev l).
Proof.
  induction l; intros H; simpl; [constructor|].
  inversion H; subst. specialize (IHl H2).
  clear -IHl H3. revert IHl.
  assert (HF : Forall (fun x => R a x) (rev l)).
  { apply Forall_rev. auto. }
  revert HF. generalize (rev l). induction l0; intros HF HS; simpl.
  - constructor; constructor.
  - inversion HF; inversion HS; subst. constructor; auto.
    apply Forall_app. split; auto.
Qed.

Lemma SS_app_l : forall (R : V -> V -> Prop) a b, StronglySorted R (a ++ b) -> StronglySorted R a.
Proof.
  induction a; intros b H; [constructor|]. simpl in H. inversion H; subst.
  constructor; eauto. rewrite Forall_forall in *. intros x Hx. apply H3, in_or_app. auto.
Qed.

Lemma SS_app_r : forall (R : V -> V -> Prop) a b, StronglySorted R (a ++ b) -> StronglySorted R b.
Proof. induction a; intros b H; auto. simpl in H. inversion H; subst. auto. Qed.

Lemma first_geq_le : forall vals s, first_geq o vals s <= length vals.
Proof. induction vals; intros s; simpl; [lia|]. destruct (vleb o s a); [lia|]. specialize (IHvals s). lia. Qed.

Lemma first_geq_below : forall vals s,
  Forall (fun x => vleb o s x = false) (firstn (first_geq o vals s) vals).
Proof.
  induction vals; intros s; simpl; [constructor|].
  destruct (vleb o s a) eqn:E; simpl; constructor; auto.
Qed.

Lemma first_geq_above : forall vals s, ascending o vals ->
  Forall (fun x => vleb o s x = true) (skipn (first_geq o vals s) vals).
Proof.
  induction vals; intros s H; simpl; [constructor|].
  inversion H; subst. destruct (vleb o s a) eqn:E; simpl.
  - constructor; auto. rewrite Forall_forall in *. intros x Hx.
    eapply (vl_trans o L); eauto.
  - apply IHvals; auto.
Qed.

Lemma last_leq1_spec : forall vals s k, k <= length vals ->
  exists j, last_leq1 o vals s k = Some j /\ j <= k /\
    (forall i x, j <= i < k -> nth_error vals i = Some x -> vleb o x s = false) /\
    (0 < j -> exists x, nth_error vals (j - 1) = Some x /\ vleb o x s = true).
Proof.
  induction k; intros Hk; simpl.
  - exists 0. repeat split; auto; intros; lia.
  - destruct (get_some _ vals k) as [x Hx]; [lia|]. rewrite Hx. simpl.
    destruct (vleb o x s) eqn:E.
    + exists (S k). repeat split; auto; try (intros; lia).
      intros _. exists x. replace (S k - 1) with k by lia. auto.
    + destruct IHk as [j [E1 [E2 [E3 E4]]]]; [lia|].
      exists j. split; auto. split; [lia|]. split; auto.
      intros i y Hi Hy. destruct (Nat.eq_dec i k); [subst|apply (E3 i); auto; lia].
      unfold get in Hx. congruence.
Qed.

Lemma seq_split2 : forall n j, j <= n -> seq 0 n = seq 0 j ++ seq j (n - j).
Proof. intros. replace n with (j + (n - j)) at 1 by lia. rewrite seq_app. auto. Qed.

Lemma map_nth_seq : forall (d : V) vals a len, a + len <= length vals ->
  map (fun k => nth k vals d) (seq a len) = firstn len (skipn a vals).
Proof.
  intros d vals a len H. apply nth_error_ext_len.
  - rewrite map_length, seq_length, firstn_length, skipn_length. lia.
  - intros i Hi. rewrite map_length, seq_length in Hi.
    erewrite map_nth_error; [|rewrite (nth_error_nth' _ 0);[reflexivity|rewrite seq_length; auto]].
    rewrite seq_nth by auto.
    rewrite (nth_error_nth' _ d) by (rewrite firstn_length, skipn_length; lia).
    f_equal.
    rewrite <- (firstn_skipn len (skipn a vals)) in *.
    assert (HX : nth (a + i) vals d = nth i (skipn a vals) d).
    { rewrite <- (firstn_skipn a vals) at 1. rewrite app_nth2; rewrite firstn_length; [f_equal; lia|lia]. }
    rewrite HX. rewrite <- (firstn_skipn len (skipn a vals)) at 1.
    rewrite app_nth1; [|rewrite firstn_length, skipn_length; lia].
    rewrite firstn_skipn. auto.
Qed.

(** *** [abs_loop] *)
Lemma abs_loop_perm : forall fuel vals s i1 j,
  i1 <= length vals -> j <= length vals -> i1 + (length vals - j) < fuel ->
  exists r, abs_loop o fuel vals s i1 j = Some r /\
    Permutation r (seq 0 i1 ++ seq j (length vals - j)).
Proof.
  induction fuel; intros vals s i1 j Hi Hj Hf; [lia|]. cbn [abs_loop].
  destruct i1 as [|i].
  - eexists. split; [reflexivity|]. simpl. auto.
  - destruct (Nat.ltb_spec j (length vals)).
    + destruct (get_some _ vals i) as [a Ha]; [lia|].
      destruct (get_some _ vals j) as [b Hb]; [lia|].
      rewrite Ha, Hb. cbn [bind].
      destruct (vltb o (vdist o s a) (vdist o s b)).
      * destruct (IHfuel vals s i j) as [r [E P]]; try lia.
        rewrite E. cbn [bind]. eexists. split; [reflexivity|].
        rewrite seq_S. simpl. rewrite <- app_assoc. simpl.
        apply Permutation_cons_app. auto.
      * destruct (IHfuel vals s (S i) (S j)) as [r [E P]]; try lia.
        rewrite E. cbn [bind]. eexists. split; [reflexivity|].
        replace (length vals - j) with (S (length vals - S j)) by lia.
        change (seq j (S (length vals - S j))) with (j :: seq (S j) (length vals - S j)).
        apply Permutation_cons_app. auto.
    + eexists. split; [reflexivity|].
      replace (length vals - j) with 0 by lia. rewrite app_nil_r.
      apply Permutation_sym, Permutation_rev.
Qed.

Lemma SS_cons_map : forall (R : V -> V -> Prop) (f : nat -> V) k r q,
  Permutation r q -> (forall x, In x q -> R (f k) (f x)) ->
  StronglySorted R (map f r) -> StronglySorted R (map f (k :: r)).
Proof.
  intros. simpl. constructor; auto.
  rewrite Forall_forall. intros x Hx. apply in_map_iff in Hx.
  destruct Hx as [y [Hy1 Hy2]]. subst. apply H0. eapply Permutation_in; eauto.
Qed.

Lemma abs_loop_sorted : forall fuel vals s i1 j d r,
  ascending o vals ->
  i1 <= j -> j <= length vals ->
  (forall k, k < i1 -> vleb o (nth k vals d) s = true) ->
  (forall k, j <= k < length vals -> vleb o s (nth k vals d) = true) ->
  i1 + (length vals - j) < fuel ->
  abs_loop o fuel vals s i1 j = Some r ->
  StronglySorted (fun a b => vleb o (vdist o s a) (vdist o s b) = true)
    (map (fun k => nth k vals d) r).
Proof.
  induction fuel; intros vals s i1 j d r HS Hij Hj Hlow Hhigh Hf HE; [lia|].
  assert (HRight : forall a b, j <= a -> a <= b -> b < length vals ->
     vleb o (vdist o s (nth a vals d)) (vdist o s (nth b vals d)) = true).
  { intros a b H1 H2 H3. apply (vl_right o L); [apply Hhigh; lia|].
    destruct (Nat.eq_dec a b); [subst; destruct (vl_total o L (nth b vals d) (nth b vals d)); auto|].
    apply (SS_map_nth _ _ d HS); lia. }
  assert (HLeft : forall a b, a <= b -> b < i1 ->
     vleb o (vdist o s (nth b vals d)) (vdist o s (nth a vals d)) = true).
  { intros a b H1 H2. apply (vl_left o L); [|apply Hlow; lia].
    destruct (Nat.eq_dec a b); [subst; destruct (vl_total o L (nth b vals d) (nth b vals d)); auto|].
    apply (SS_map_nth _ _ d HS); lia. }
  cbn [abs_loop] in HE. destruct i1 as [|i].
  - inversion HE; subst. clear -HRight Hj.
    remember (length vals - j) as m.
    assert (HB : forall m a, j <= a -> a + m <= length vals ->
       StronglySorted (fun a b => vleb o (vdist o s a) (vdist o s b) = true)
         (map (fun k => nth k vals d) (seq a m))).
    { induction m0; intros a Ha Hm; simpl; constructor; [apply IHm0; lia|].
      rewrite Forall_forall. intros x Hx. apply in_map_iff in Hx.
      destruct Hx as [y [Hy1 Hy2]]. subst x. apply in_seq in Hy2. apply HRight; lia. }
    apply HB; lia.
  - destruct (Nat.ltb_spec j (length vals)).
    + destruct (get_some _ vals i) as [a Ha]; [lia|].
      destruct (get_some _ vals j) as [b Hb]; [lia|].
      rewrite Ha, Hb in HE. cbn [bind] in HE.
      assert (Ea : nth i vals d = a) by (apply nth_error_nth; auto).
      assert (Eb : nth j vals d = b) by (apply nth_error_nth; auto).
      destruct (vltb o (vdist o s a) (vdist o s b)) eqn:EL.
      * destruct (abs_loop_perm fuel vals s i j) as [r' [E P]]; try lia.
        rewrite E in HE. cbn [bind] in HE. inversion HE; subst r.
        apply (SS_cons_map _ _ _ _ _ P).
        -- intros x Hx. apply in_app_or in Hx. destruct Hx as [Hx|Hx]; apply in_seq in Hx.
           ++ apply HLeft; lia.
           ++ apply (vl_trans o L) with (vdist o s b); [|rewrite <- Eb; apply HRight; lia].
              rewrite (vl_lt o L) in EL. apply negb_true_iff in EL.
              rewrite Ea. destruct (vl_total o L (vdist o s a) (vdist o s b)); auto. congruence.
        -- apply (IHfuel vals s i j d); auto; try lia.
      * destruct (abs_loop_perm fuel vals s (S i) (S j)) as [r' [E P]]; try lia.
        rewrite E in HE. cbn [bind] in HE. inversion HE; subst r.
        apply (SS_cons_map _ _ _ _ _ P).
        -- rewrite (vl_lt o L) in EL. apply negb_false_iff in EL.
           intros x Hx. apply in_app_or in Hx. destruct Hx as [Hx|Hx]; apply in_seq in Hx.
           ++ apply (vl_trans o L) with (vdist o s a); [rewrite Eb; auto|].
              rewrite <- Ea. apply HLeft; lia.
           ++ apply HRight; lia.
        -- apply (IHfuel vals s (S i) (S j) d); auto; try lia.
           intros k Hk; apply Hhigh; lia.
    + inversion HE; subst. clear -HLeft.
      assert (HB : forall m, m <= S i ->
       StronglySorted (fun a b => vleb o (vdist o s a) (vdist o s b) = true)
         (map (fun k => nth k vals d) (rev (seq 0 m)))).
      { induction m; intros Hm; [constructor|].
        rewrite seq_S, rev_app_distr. simpl. constructor; [apply IHm; lia|].
        rewrite Forall_forall. intros x Hx. apply in_map_iff in Hx.
        destruct Hx as [y [Hy1 Hy2]]. subst x. apply in_rev, in_seq in Hy2. apply HLeft; lia. }
      apply (HB (S i)); lia.
Qed.

(** *** [largest_loop] *)
Lemma largest_loop_perm : forall fuel vals s i1 j,
  i1 <= length vals -> i1 - j < fuel ->
  exists r, largest_loop o fuel vals s i1 j = Some r /\ Permutation r (seq j (i1 - j)).
Proof.
  induction fuel; intros vals s i1 j Hi Hf; [lia|]. cbn [largest_loop].
  destruct (Nat.ltb_spec j i1).
  - destruct (get_some _ vals (i1 - 1)) as [a Ha]; [lia|].
    destruct (get_some _ vals j) as [b Hb]; [lia|].
    rewrite Ha, Hb. cbn [bind].
    destruct (vltb o (vdist o s b) (vdist o s a)).
    + destruct (IHfuel vals s (i1 - 1) j) as [r [E P]]; try lia.
      rewrite E. cbn [bind]. eexists. split; [reflexivity|].
      replace (i1 - j) with (S (i1 - 1 - j)) by lia. rewrite seq_S.
      replace (j + (i1 - 1 - j)) with (i1 - 1) by lia.
      rewrite <- (app_nil_r (seq j (i1 - 1 - j))) in P.
      apply Permutation_cons_app. auto.
    + destruct (IHfuel vals s i1 (S j)) as [r [E P]]; try lia.
      rewrite E. cbn [bind]. eexists. split; [reflexivity|].
      replace (i1 - j) with (S (i1 - S j)) by lia. simpl. constructor. auto.
  - eexists. split; [reflexivity|]. replace (i1 - j) with 0 by lia. auto.
Qed.

(** On an ascending list the distance in the middle is bounded by the ends. *)
Lemma dist_middle : forall vals s d a b c,
  ascending o vals -> a <= b -> b <= c -> c < length vals ->
  vleb o (vdist o s (nth b vals d)) (vdist o s (nth a vals d)) = true \/
  vleb o (vdist o s (nth b vals d)) (vdist o s (nth c vals d)) = true.
Proof.
  intros vals s d a b c HS H1 H2 H3.
  assert (HL : forall x y, x <= y -> y < length vals ->
             vleb o (nth x vals d) (nth y vals d) = true).
  { intros x y Hxy Hy. destruct (Nat.eq_dec x y).
    - subst. destruct (vl_total o L (nth y vals d) (nth y vals d)); auto.
    - apply (SS_map_nth _ _ d HS); lia. }
  destruct (vl_total o L (nth b vals d) s).
  - left. apply (vl_left o L); auto. apply HL; lia.
  - right. apply (vl_right o L); auto.
Qed.

Lemma largest_loop_sorted : forall fuel vals s i1 j d r,
  ascending o vals -> i1 <= length vals -> i1 - j < fuel ->
  largest_loop o fuel vals s i1 j = Some r ->
  StronglySorted (fun a b => vleb o (vdist o s b) (vdist o s a) = true)
    (map (fun k => nth k vals d) r).
Proof.
  induction fuel; intros vals s i1 j d r HS Hi Hf HE; [lia|]. cbn [largest_loop] in HE.
  destruct (Nat.ltb_spec j i1).
  - destruct (get_some _ vals (i1 - 1)) as [a Ha]; [lia|].
    destruct (get_some _ vals j) as [b Hb]; [lia|].
    rewrite Ha, Hb in HE. cbn [bind] in HE.
    assert (Ea : nth (i1 - 1) vals d = a) by (apply nth_error_nth; auto).
    assert (Eb : nth j vals d = b) by (apply nth_error_nth; auto).
    destruct (vltb o (vdist o s b) (vdist o s a)) eqn:EL;
      rewrite (vl_lt o L) in EL.
    + apply negb_true_iff in EL.
      assert (EL' : vleb o (vdist o s b) (vdist o s a) = true).
      { destruct (vl_total o L (vdist o s b) (vdist o s a)); auto. congruence. }
      destruct (largest_loop_perm fuel vals s (i1 - 1) j) as [r' [E P]]; try lia.
      rewrite E in HE. cbn [bind] in HE. inversion HE; subst r.
      apply (SS_cons_map _ _ _ _ _ P).
      * intros x Hx. apply in_seq in Hx.
        destruct (dist_middle vals s d j x (i1 - 1) HS) as [M|M]; try lia; auto.
        rewrite Ea. apply (vl_trans o L) with (vdist o s b); auto. rewrite <- Eb; auto.
      * apply (IHfuel vals s (i1 - 1) j d); auto; lia.
    + apply negb_false_iff in EL.
      destruct (largest_loop_perm fuel vals s i1 (S j)) as [r' [E P]]; try lia.
      rewrite E in HE. cbn [bind] in HE. inversion HE; subst r.
      apply (SS_cons_map _ _ _ _ _ P).
      * intros x Hx. apply in_seq in Hx.
        destruct (dist_middle vals s d j x (i1 - 1) HS) as [M|M]; try lia; auto.
        rewrite Eb. apply (vl_trans o L) with (vdist o s a); auto. rewrite <- Ea; auto.
      * apply (IHfuel vals s i1 (S j) d); auto; lia.
  - inversion HE; subst. constructor.
Qed.

End R.

Section Main.
Context {V : Type} (o : vops V).

(** For every comparison outcome (NaN included) permu is a permutation. *)
Lemma permu_is_perm : forall t vals s,
  t <> smallest -> t <> largest ->
  exists p, permu_of o t vals s = Some p /\ is_perm p (length vals).
Proof.
  intros t vals s H1 H2. destruct t; try congruence; unfold permu_of, is_perm.
  - eexists. split; [reflexivity|].
    rewrite (seq_split2 (length vals) (first_geq o vals s)) by apply first_geq_le.
    apply Permutation_app_comm.
  - destruct (last_leq1_spec o vals s (length vals)) as [j [E [Hj _]]]; auto.
    rewrite E. cbn [bind]. eexists. split; [reflexivity|].
    rewrite (seq_split2 (length vals) j) by auto.
    apply Permutation_app; apply Permutation_sym, Permutation_rev.
  - pose proof (first_geq_le o vals s).
    destruct (abs_loop_perm o (S (length vals)) vals s (first_geq o vals s) (first_geq o vals s))
      as [r [E P]]; try lia.
    exists r. split; auto. rewrite P. rewrite <- seq_split2; auto.
  - destruct (largest_loop_perm o (S (length vals)) vals s (length vals) 0) as [r [E P]]; try lia.
    exists r. split; auto. rewrite P. rewrite Nat.sub_0_r. auto.
Qed.

Lemma permu_sorts : forall t vals s p d,
  vlaws o -> ascending o vals -> permu_of o t vals s = Some p ->
  target_order o t s (gather d vals p).
Proof.
  intros t vals s p d L HS HE. destruct t; try discriminate; unfold permu_of in HE; simpl.
  - inversion HE; subst. unfold gather. rewrite map_app.
    pose proof (first_geq_le o vals s) as Hle.
    rewrite !map_nth_seq by lia. simpl skipn.
    rewrite firstn_all2 by (rewrite skipn_length; lia).
    exists (skipn (first_geq o vals s) vals), (firstn (first_geq o vals s) vals).
    split; auto. split; [apply first_geq_above; auto|]. split; [apply first_geq_below|].
    apply (SS_app_r _ (firstn (first_geq o vals s) vals)). rewrite firstn_skipn. auto.
  - destruct (last_leq1_spec o vals s (length vals)) as [j [E [Hj [Hab Hbe]]]]; auto.
    rewrite E in HE. cbn [bind] in HE. inversion HE; subst.
    unfold gather. rewrite map_app, !map_rev, !map_nth_seq by lia. simpl skipn.
    rewrite (firstn_all2 (n := length vals - j)) by (rewrite skipn_length; lia).
    exists (rev (firstn j vals)), (rev (skipn j vals)).
    split; auto. split; [|split].
    + apply Forall_rev. rewrite Forall_forall. intros x Hx.
      apply (In_nth _ _ d) in Hx. destruct Hx as [i [Hi Hx]].
      rewrite firstn_length in Hi.
      destruct Hbe as [y [Hy1 Hy2]]; [lia|].
      assert (Hxi : nth i vals d = x).
      { rewrite <- Hx. rewrite <- (firstn_skipn j vals) at 1. apply app_nth1.
        rewrite firstn_length. lia. }
      assert (Hyi : nth (j - 1) vals d = y) by (apply nth_error_nth; auto).
      destruct (Nat.eq_dec i (j - 1)); [subst; congruence|].
      apply (vl_trans o L) with y; auto. rewrite <- Hxi, <- Hyi.
      apply (SS_map_nth _ vals d HS). lia.
    + apply Forall_rev. rewrite Forall_forall. intros x Hx.
      apply In_nth_error in Hx. destruct Hx as [i Hi].
      assert (i < length (skipn j vals)) by (apply nth_error_Some; congruence).
      rewrite skipn_length in H.
      apply (Hab (j + i)); [lia|].
      rewrite <- (firstn_skipn j vals). rewrite nth_error_app2; rewrite firstn_length; [|lia].
      rewrite <- Hi. f_equal. lia.
    + unfold descending. apply SS_impl_rev.
      apply (SS_app_l _ _ (skipn j vals)). rewrite firstn_skipn. auto.
  - pose proof (first_geq_le o vals s) as Hle.
    apply (abs_loop_sorted o L (S (length vals)) vals s (first_geq o vals s) (first_geq o vals s)); auto; try lia.
    + intros k Hk.
      pose proof (first_geq_below o vals s) as F. rewrite Forall_forall in F.
      assert (HI : vleb o s (nth k vals d) = false).
      { apply F. rewrite <- (firstn_skipn (first_geq o vals s) vals) at 1.
        rewrite app_nth1 by (rewrite firstn_length; lia). apply nth_In. rewrite firstn_length. lia. }
      destruct (vl_total o L s (nth k vals d)); congruence.
    + intros k Hk.
      pose proof (first_geq_above o L vals s HS) as F. rewrite Forall_forall in F.
      apply F. rewrite <- (firstn_skipn (first_geq o vals s) vals) at 1.
      rewrite app_nth2 by (rewrite firstn_length; lia). apply nth_In.
      rewrite skipn_length, firstn_length. lia.
  - apply (largest_loop_sorted o L (S (length vals)) vals s (length vals) 0); auto; lia.
Qed.

Lemma target_order_nil : forall t s, target_order o t s [].
Proof.
  destruct t; simpl; intros; try apply SSorted_nil;
  exists [], []; (split; [reflexivity|]); (split; [constructor|]); (split; [constructor|]);
  apply SSorted_nil.
Qed.

Lemma gather_combine : forall (B : Type) (dv : V) (db : B) vals vecs p,
  length vals = length vecs ->
  combine (gather dv vals p) (gather db vecs p) = gather (dv, db) (combine vals vecs) p.
Proof.
  intros B dv db vals vecs p H. unfold gather. induction p; simpl; auto.
  rewrite IHp. f_equal. symmetry. apply combine_nth. auto.
Qed.

Lemma permute_vecs_gather : forall (B : Type) (d : B) l p,
  is_perm p (length l) -> permute_vecs l (length l) p = Some (gather d l p).
Proof.
  intros B d l p H.
  rewrite <- (app_nil_r l) at 1. rewrite <- (app_nil_r (gather d l p)).
  apply permute_vecs_gathers; auto. apply gathered_gather.
  intros k Hk. eapply is_perm_in; eauto.
Qed.

Lemma order_ritz_correct : forall (B : Type) t shifts nc (vals : list V) (vecs : list B),
  shifts <> [] -> length vecs = length vals ->
  exists vals' vecs', order_ritz o t shifts nc vals vecs = Some (vals', vecs') /\
    length vals' = length vals /\ length vecs' = length vecs /\
    Permutation (combine vals' vecs')
      (combine (match t with largest => map (vneg o) vals | _ => vals end) vecs) /\
    (vlaws o -> ascending o vals ->
       forall s, nth_error shifts (Nat.min (length shifts - 1) nc) = Some s ->
       target_order o t s vals').
Proof.
  intros B t shifts nc vals vecs Hsh HL.
  assert (Hs : exists s, pick_shift shifts nc = Some s /\
     nth_error shifts (Nat.min (length shifts - 1) nc) = Some s).
  { unfold pick_shift. destruct shifts as [|s0 sh]; [congruence|]. simpl length.
    destruct (get_some _ (s0 :: sh) (Nat.min (length sh) nc)) as [s Hs]; [simpl; lia|].
    exists s. split; auto. replace (S (length sh) - 1) with (length sh) by lia. auto. }
  destruct Hs as [s [Hs1 Hs2]].
  destruct t.
  1: { exists vals, vecs. split; [auto|]. split; [auto|]. split; [auto|]. split; [auto|]. auto. }
  1: { exists (map (vneg o) vals), vecs. rewrite map_length. split; [auto|]. split; [auto|]. split; [auto|]. split; [auto|].
       intros L HA s1 _. simpl. clear -L HA. induction HA; simpl; constructor; auto.
       rewrite Forall_forall in *. intros x Hx. apply in_map_iff in Hx.
       destruct Hx as [y [Hy1 Hy2]]. subst. apply (vl_neg o L); auto. }
  all: match goal with |- context[order_ritz o ?tt _ _ _ _] =>
    destruct vals as [|d0 v0] eqn:EV;
    [ exists [], vecs; destruct vecs; [|discriminate];
      split; [reflexivity|]; split; [reflexivity|]; split; [reflexivity|];
      split; [apply Permutation_refl|];
      intros _ _ s1 _; apply (target_order_nil tt s1)
    | rewrite <- EV in *;
      destruct (permu_is_perm tt vals s) as [p [HP1 HP2]]; [congruence|congruence|];
      destruct vecs as [|b0 w0] eqn:EW; [subst; discriminate|]; rewrite <- EW in *;
      exists (gather d0 vals p), (gather b0 vecs p);
      assert (HR : order_ritz o tt shifts nc vals vecs
                   = Some (gather d0 vals p, gather b0 vecs p));
      [ unfold order_ritz; rewrite EV at 1; rewrite Hs1; cbn [bind]; rewrite HP1; cbn [bind];
        rewrite (permute_vecs_gather _ d0) by auto; cbn [bind];
        rewrite <- HL; rewrite (permute_vecs_gather _ b0) by (rewrite HL; auto); reflexivity
      | split; [exact HR|];
        assert (HPL : length p = length vals) by (eapply is_perm_length; eauto);
        unfold gather at 1 2; rewrite !map_length; split; [auto|]; split; [congruence|];
        split;
        [ rewrite gather_combine by auto; apply gather_Permutation;
          rewrite combine_length; replace (Nat.min (length vals) (length vecs)) with (length vals) by lia; auto
        | intros L HA s' Hs'; assert (s' = s) by congruence; subst s';
          apply permu_sorts; auto ] ] ]
  end.
Qed.

End Main.
