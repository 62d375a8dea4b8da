(** Proofs about ordered insertion and locking. *)
From Verif Require Import Base Values PermModel PermProofs RitzModel LockModel.
From Coq Require Import List Arith Bool Lia Permutation Sorted.
Import ListNotations.

Section Ins.
Context {B : Type}.

Definition insert_at (i : nat) (v : B) (l : list B) : list B :=
  firstn i l ++ v :: skipn i l.

Lemma shift_up_spec : forall cnt (a : list B) i,
  i + cnt < length a ->
  exists a', shift_up a i cnt = Some a' /\ length a' = length a /\
    (forall k, i < k <= i + cnt -> nth_error a' k = nth_error a (k - 1)) /\
    (forall k, k <= i \/ i + cnt < k -> nth_error a' k = nth_error a k).
Proof.
  induction cnt; intros a i H; simpl.
  - exists a. split; [auto|]. split; [auto|]. split; [intros; lia|auto].
  - destruct (get_some _ a (i + cnt)) as [v Hv]; [lia|]. rewrite Hv. simpl.
    rewrite put_some by lia. simpl.
    destruct (IHcnt (upd a (i + cnt + 1) v) i) as [a' [E [L [G F]]]].
    { rewrite length_upd. lia. }
    rewrite length_upd in L.
    exists a'. split; auto. split; auto. split.
    + intros k Hk. destruct (Nat.eq_dec k (i + cnt + 1)).
      * subst. rewrite F by lia. rewrite nth_error_upd_eq by lia.
        replace (i + cnt + 1 - 1) with (i + cnt) by lia. symmetry. auto.
      * rewrite G by lia. apply nth_error_upd_neq. lia.
    + intros k Hk. rewrite F by lia. apply nth_error_upd_neq. lia.
Qed.

Lemma nth_error_firstn : forall (l : list B) n k,
  nth_error (firstn n l) k = if k <? n then nth_error l k else None.
Proof.
  induction l; intros [|n] [|k]; simpl; auto.
  - destruct (_ <? _); auto.
  - rewrite IHl. reflexivity.
Qed.

Lemma nth_error_skipn : forall (l : list B) n k, nth_error (skipn n l) k = nth_error l (n + k).
Proof.
  induction l; intros [|n] k; simpl; auto. destruct k; auto.
Qed.

Lemma nth_error_insert_at : forall i v (l : list B) k, i <= length l ->
  nth_error (insert_at i v l) k =
    if k <? i then nth_error l k else if k =? i then Some v else nth_error l (k - 1).
Proof.
  intros i v l k H. unfold insert_at.
  destruct (Nat.ltb_spec k i).
  - rewrite nth_error_app1 by (rewrite firstn_length; lia).
    rewrite nth_error_firstn. destruct (Nat.ltb_spec k i); auto; lia.
  - rewrite nth_error_app2 by (rewrite firstn_length; lia).
    rewrite firstn_length. replace (Nat.min i (length l)) with i by lia.
    destruct (Nat.eqb_spec k i).
    + subst. rewrite Nat.sub_diag. auto.
    + replace (k - i) with (S (k - 1 - i)) by lia. simpl.
      rewrite nth_error_skipn. f_equal. lia.
Qed.

Lemma insert_array_spec : forall (a : list B) n i v,
  i <= n -> n < length a ->
  exists a', insert_array a n i v = Some a' /\ length a' = length a /\
    firstn (S n) a' = insert_at i v (firstn n a) /\
    (forall k, n < k -> nth_error a' k = nth_error a k).
Proof.
  intros a n i v Hi Hn. unfold insert_array.
  destruct (shift_up_spec (n - i) a i) as [a1 [E [L [G F]]]]; [lia|].
  rewrite E. simpl bind. rewrite put_some by lia.
  eexists. split; [reflexivity|]. rewrite length_upd. split; auto. split.
  - apply nth_error_ext. intros k.
    rewrite nth_error_firstn.
    rewrite nth_error_insert_at by (rewrite firstn_length; lia).
    rewrite !nth_error_firstn.
    rewrite nth_error_upd by lia.
    destruct (Nat.ltb_spec k (S n)).
    + destruct (Nat.ltb_spec k i).
      * destruct (Nat.eq_dec i k); [lia|]. rewrite F by lia.
        destruct (Nat.ltb_spec k n); auto; lia.
      * destruct (Nat.eqb_spec k i).
        -- destruct (Nat.eq_dec i k); auto; lia.
        -- destruct (Nat.eq_dec i k); [lia|]. rewrite G by lia.
           destruct (Nat.ltb_spec (k - 1) n); auto; lia.
    + destruct (Nat.ltb_spec k i); [lia|].
      destruct (Nat.eqb_spec k i); [lia|].
      destruct (Nat.ltb_spec (k - 1) n); auto; lia.
  - intros k Hk. rewrite nth_error_upd_neq by lia. apply F. lia.
Qed.

End Ins.

Lemma map_insert_at : forall (B C : Type) (f : B -> C) i v l,
  map f (insert_at i v l) = insert_at i (f v) (map f l).
Proof.
  intros. unfold insert_at. rewrite map_app. simpl. rewrite firstn_map, skipn_map. auto.
Qed.

Lemma insert_at_perm : forall (B : Type) i (v : B) l, Permutation (insert_at i v l) (v :: l).
Proof.
  intros. unfold insert_at. apply Permutation_sym, Permutation_cons_app.
  rewrite firstn_skipn. auto.
Qed.

Section L.
Context {V N X : Type} (o : vops V).
Notation cand := (@cand V N X).
Notation locked := (@locked V N X).

(** ** Specification of "ordered according to the target".
    [key_le t s a b]: a may precede b when both were sought with shift s. *)
Definition key_le (t : target) (s a b : V) : Prop :=
  match t with
  | smallest => vleb o a b = true
  | largest => vleb o b a = true
  | closest_geq => vleb o (vsub o a s) (vsub o b s) = true
  | closest_leq => vleb o (vsub o s a) (vsub o s b) = true
  | closest_abs => vleb o (vdist o s a) (vdist o s b) = true
  | largest_abs => vleb o (vdist o s b) (vdist o s a) = true
  end.

Definition extreme (t : target) : bool :=
  match t with smallest | largest => true | _ => false end.

(** The shift used for the k-th pair: the last one is reused. *)
Definition shift_at (shifts : list V) (d : V) (k : nat) : V :=
  nth (Nat.min (length shifts - 1) k) shifts d.

(** Adjacent entries are in order; for interior targets only when they were
    sought with the same shift. *)
Definition adj_ordered (t : target) (shifts : list V) (d : V) (l : list V) : Prop :=
  forall k a b, nth_error l k = Some a -> nth_error l (S k) = Some b ->
    (extreme t = true \/ shift_at shifts d k = shift_at shifts d (S k)) ->
    key_le t (shift_at shifts d (S k)) a b.

Lemma pick_shift_at : forall (shifts : list V) d k,
  shifts <> [] -> pick_shift shifts k = Some (shift_at shifts d k).
Proof.
  intros shifts d k H. unfold pick_shift, shift_at, get.
  destruct shifts as [|s0 t]; [congruence|]. simpl length.
  replace (S (length t) - 1) with (length t) by lia.
  apply nth_error_nth'. simpl. lia.
Qed.

(** Where the scan stops. *)
Lemma scan_spec : forall t shifts d newVal evals n i,
  shifts <> [] \/ extreme t = true ->
  i <= length evals ->
  let cs := if extreme t then None else pick_shift shifts (0 + n) in
  exists p, scan o t shifts 0 cs newVal evals i = Some p /\ p <= i /\
    (forall k e, p <= k < i -> nth_error evals k = Some e ->
        stop_test o t (shift_at shifts d n) newVal e = false /\
        (extreme t = false -> veqb o (shift_at shifts d k) (shift_at shifts d n) = true)) /\
    (forall k e, p = S k -> nth_error evals k = Some e ->
        (extreme t = false -> veqb o (shift_at shifts d k) (shift_at shifts d n) = true) ->
        stop_test o t (shift_at shifts d n) newVal e = true).
Proof.
  intros t shifts d newVal evals n i Hsh. simpl.
  induction i; intros Hi.
  - exists 0. split; [reflexivity|]. split; [lia|]. split; intros; lia.
  - destruct (get_some _ evals i) as [e He]; [lia|].
    cbn [scan]. rewrite He. cbn [bind].
    set (c := shift_at shifts d n) in *.
    assert (Hgen : forall stop rec,
      rec = (if extreme t then stop_test o t c newVal e
             else negb (veqb o (shift_at shifts d i) c) || stop_test o t c newVal e) ->
      stop = (if rec then Some (S i) else
              scan o t shifts 0 (if extreme t then None else pick_shift shifts n) newVal evals i) ->
      exists p, stop = Some p /\ p <= S i /\
        (forall k e, p <= k < S i -> nth_error evals k = Some e ->
           stop_test o t c newVal e = false /\
           (extreme t = false -> veqb o (shift_at shifts d k) c = true)) /\
        (forall k e, p = S k -> nth_error evals k = Some e ->
          (extreme t = false -> veqb o (shift_at shifts d k) c = true) ->
          stop_test o t c newVal e = true)).
    { intros stop rec Hrec ->. destruct rec.
      - exists (S i). split; auto. split; auto. split; [intros; lia|].
        intros k e' Hk He' Hv. inversion Hk; subst k.
        unfold get in He. assert (e' = e) by congruence. subst e'.
        destruct (extreme t); [auto|].
        rewrite (Hv eq_refl) in Hrec. simpl in Hrec. auto.
      - destruct IHi as [p [E [Hp [H1 H2]]]]; [lia|].
        exists p. split; auto. split; [lia|]. split; auto.
        intros k e' Hk He'. destruct (Nat.eq_dec k i).
        + subst k. unfold get in He. assert (e' = e) by congruence. subst e'.
          destruct (extreme t) eqn:ET.
          * split; auto. discriminate.
          * symmetry in Hrec. apply orb_false_iff in Hrec. destruct Hrec as [R1 R2].
            apply negb_false_iff in R1. auto.
        + apply H1; auto. lia. }
    destruct t; cbn [extreme] in *.
    + eapply Hgen; [reflexivity|]. reflexivity.
    + eapply Hgen; [reflexivity|]. reflexivity.
    + destruct Hsh as [Hsh|]; [|discriminate].
      rewrite (pick_shift_at shifts d n) in * by auto. rewrite (pick_shift_at shifts d (0 + i)) by auto.
      cbn [bind]. eapply Hgen; [reflexivity|]. simpl. reflexivity.
    + destruct Hsh as [Hsh|]; [|discriminate].
      rewrite (pick_shift_at shifts d n) in * by auto. rewrite (pick_shift_at shifts d (0 + i)) by auto.
      cbn [bind]. eapply Hgen; [reflexivity|]. simpl. reflexivity.
    + destruct Hsh as [Hsh|]; [|discriminate].
      rewrite (pick_shift_at shifts d n) in * by auto. rewrite (pick_shift_at shifts d (0 + i)) by auto.
      cbn [bind]. eapply Hgen; [reflexivity|]. simpl. reflexivity.
    + destruct Hsh as [Hsh|]; [|discriminate].
      rewrite (pick_shift_at shifts d n) in * by auto. rewrite (pick_shift_at shifts d (0 + i)) by auto.
      cbn [bind]. eapply Hgen; [reflexivity|]. simpl. reflexivity.
Qed.

Lemma stop_true : forall t s nv e, stop_test o t s nv e = true -> key_le t s e nv.
Proof. destruct t; simpl; auto. Qed.

Lemma stop_false : forall t s nv e, vlaws o -> stop_test o t s nv e = false -> key_le t s nv e.
Proof.
  intros t s nv e L H. destruct t; simpl in *;
  match goal with |- vleb o ?x ?y = true => destruct (vl_total o L x y); congruence end.
Qed.

(** Equal shifts are the same double (excludes mixing +0.0 with -0.0). *)
Definition shifts_canonical (shifts : list V) :=
  forall a b, In a shifts -> In b shifts -> veqb o a b = true -> a = b.

Lemma shift_at_in : forall shifts d k, shifts <> [] -> In (shift_at shifts d k) shifts.
Proof.
  intros. unfold shift_at. apply nth_In. destruct shifts; [congruence|]. simpl. lia.
Qed.

Lemma insertionSort_spec : forall t shifts d newVal evals newNorm (norms : list N) newFlag flags perm n,
  shifts <> [] \/ extreme t = true ->
  n < length evals -> n < length norms -> n < length flags -> n < length perm ->
  exists i evals' norms' flags' perm',
    insertionSort o t shifts newVal evals newNorm norms newFlag flags perm n 0
      = Some (evals', norms', flags', perm') /\ i <= n /\
    length evals' = length evals /\ length norms' = length norms /\
    length flags' = length flags /\ length perm' = length perm /\
    firstn (S n) evals' = insert_at i newVal (firstn n evals) /\
    firstn (S n) norms' = insert_at i newNorm (firstn n norms) /\
    firstn (S n) flags' = insert_at i newFlag (firstn n flags) /\
    firstn (S n) perm' = insert_at i n (firstn n perm) /\
    (forall k, n < k -> nth_error evals' k = nth_error evals k) /\
    (forall k, n < k -> nth_error norms' k = nth_error norms k) /\
    (forall k, n < k -> nth_error perm' k = nth_error perm k) /\
    (vlaws o -> (extreme t = false -> shifts_canonical shifts) ->
     adj_ordered t shifts d (firstn n evals) ->
     adj_ordered t shifts d (firstn (S n) evals')).
Proof.
  intros t shifts d newVal evals newNorm norms newFlag flags perm n Hsh H1 H2 H3 H4.
  destruct (scan_spec t shifts d newVal evals n n Hsh) as [i [E [Hi [S1 S2]]]]; [lia|].
  destruct (insert_array_spec evals n i newVal Hi H1) as [ev' [E1 [L1 [F1 R1]]]].
  destruct (insert_array_spec norms n i newNorm Hi H2) as [no' [E2 [L2 [F2 R2]]]].
  destruct (insert_array_spec perm n i n Hi H4) as [pe' [E3 [L3 [F3 R3]]]].
  destruct (insert_array_spec flags n i newFlag Hi H3) as [fl' [E4 [L4 [F4 R4]]]].
  exists i, ev', no', fl', pe'.
  split.
  { unfold insertionSort.
    replace (match t with smallest | largest => None | _ => pick_shift shifts (0 + n) end)
      with (if extreme t then None else pick_shift shifts (0 + n)) by (destruct t; auto).
    rewrite E. cbn [bind]. rewrite E1. cbn [bind]. rewrite E2. cbn [bind].
    rewrite E3. cbn [bind]. rewrite E4. reflexivity. }
  do 12 (split; [auto; fail|]).
  intros L HC HA k a b Ha Hb Hs.
  rewrite F1 in Ha, Hb.
  assert (HL : length (firstn n evals) = n) by (rewrite firstn_length; lia).
  rewrite nth_error_insert_at in Ha, Hb by lia.
  (* the shift at position k+1 equals the shift at n when i <= k < n *)
  assert (HSE : forall q, extreme t = false -> i <= q < n -> shift_at shifts d q = shift_at shifts d n).
  { intros q ET Hq. destruct Hsh as [Hsh|]; [|congruence].
    apply (HC ET); try apply shift_at_in; auto.
    destruct (get_some _ evals q) as [e He]; [lia|].
    destruct (S1 q e Hq He) as [_ Hv]. auto. }
  assert (HSE2 : forall q, i <= q <= n -> extreme t = false -> shift_at shifts d q = shift_at shifts d n).
  { intros q Hq ET. destruct (Nat.eq_dec q n); [subst; auto|]. apply HSE; auto. lia. }
  assert (Hkey : forall s1 s2 x y, extreme t = true \/ s1 = s2 -> key_le t s1 x y -> key_le t s2 x y).
  { intros s1 s2 x y [He|He] Hk; [destruct t; try discriminate; auto | subst; auto]. }
  destruct (Nat.ltb_spec k i) as [Hk|Hk].
  - destruct (Nat.ltb_spec (S k) i) as [Hk2|Hk2].
    + apply (HA k a b); auto.
    + destruct (Nat.eqb_spec (S k) i); [|lia]. inversion Hb; subst b. clear Hb.
      rewrite nth_error_firstn in Ha. destruct (Nat.ltb_spec k n); [|lia].
      assert (HEX : extreme t = true \/ extreme t = false) by (destruct (extreme t); auto).
      apply Hkey with (shift_at shifts d n).
      { destruct HEX; auto. right. symmetry. apply HSE2; solve [auto | lia]. }
      apply stop_true. apply (S2 k a); auto.
      intros ET. destruct Hs as [Hs|Hs]; [congruence|].
      rewrite Hs. rewrite (HSE2 (S k)) by (auto; lia).
      apply (vl_eq o L). destruct (vl_total o L (shift_at shifts d n) (shift_at shifts d n)); auto.
  - destruct (Nat.ltb_spec (S k) i); [lia|].
    destruct (Nat.eqb_spec (S k) i); [lia|].
    replace (S k - 1) with k in Hb by lia.
    assert (HEX : extreme t = true \/ extreme t = false) by (destruct (extreme t); auto).
    assert (Hkn : k < n).
    { rewrite nth_error_firstn in Hb. destruct (Nat.ltb_spec k n); auto. discriminate. }
    apply Hkey with (shift_at shifts d n).
    { destruct HEX; auto. right. symmetry. apply HSE2; solve [auto | lia]. }
    destruct (Nat.eqb_spec k i).
    + inversion Ha; subst a. apply stop_false; auto.
      rewrite nth_error_firstn in Hb. destruct (Nat.ltb_spec k n); [|lia].
      destruct (S1 k b); auto; lia.
    + (* both moved up by one *)
      assert (Ek : k = S (k - 1)) by lia.
      apply Hkey with (shift_at shifts d (S (k - 1))).
      { destruct HEX; auto. right. apply HSE2; solve [auto|lia]. }
      apply (HA (k - 1) a b); auto.
      { rewrite <- Ek. auto. }
      destruct HEX; auto. right. rewrite <- Ek. rewrite (HSE2 k), (HSE2 (k - 1)) by (auto; lia). auto.
Qed.

(** *** The history invariant *)
Definition is_locked (c : cand) : bool := negb (is_unconverged (c_flag c)).

Record linv (t : target) (shifts : list V) (d : V) (st : locked) (H : list cand) : Prop := {
  li_num : l_num st = length H;
  li_perm : is_perm (firstn (l_num st) (l_perm st)) (l_num st);
  li_evals : forall c0, firstn (l_num st) (l_evals st)
        = map c_val (gather c0 H (firstn (l_num st) (l_perm st)));
  li_norms : forall c0, firstn (l_num st) (l_norms st)
        = map c_norm (gather c0 H (firstn (l_num st) (l_perm st)));
  li_flags : forall c0, firstn (l_num st) (l_flags st)
        = map c_flag (gather c0 H (firstn (l_num st) (l_perm st)));
  li_vecs : firstn (l_num st) (l_evecs st) = map c_vec H;
  li_ord : vlaws o -> (extreme t = false -> shifts_canonical shifts) ->
           adj_ordered t shifts d (firstn (l_num st) (l_evals st)) }.

Definition sizes (st : locked) (numEvals : nat) : Prop :=
  length (l_evals st) = numEvals /\ length (l_norms st) = numEvals /\
  length (l_flags st) = numEvals /\ length (l_perm st) = numEvals /\
  numEvals <= length (l_evecs st).

Lemma gather_app_old : forall (c0 : cand) H h p,
  (forall k, In k p -> k < length H) -> gather c0 (H ++ [h]) p = gather c0 H p.
Proof.
  intros. unfold gather. apply map_ext_in. intros k Hk. apply app_nth1. auto.
Qed.

Lemma insert_at_is_perm : forall i n p, is_perm p n -> is_perm (insert_at i n p) (S n).
Proof.
  intros i n p H. unfold is_perm. rewrite insert_at_perm. rewrite H.
  rewrite seq_S. simpl. apply Permutation_cons_append.
Qed.

(** [rem] are the candidates still to be visited: their norms and vectors sit
    at n0+k.., the accepted values at l_num... *)
Lemma lock_loop_spec : forall t shifts d numEvals n0 rem k st H,
  shifts <> [] \/ extreme t = true ->
  linv t shifts d st H -> sizes st numEvals ->
  l_num st <= n0 + k -> n0 + k + length rem <= numEvals ->
  (forall j c, nth_error rem j = Some c ->
     nth_error (l_norms st) (n0 + k + j) = Some (c_norm c) /\
     nth_error (l_evecs st) (n0 + k + j) = Some (c_vec c)) ->
  (forall j c, nth_error (filter is_locked rem) j = Some c ->
     nth_error (l_evals st) (l_num st + j) = Some (c_val c)) ->
  exists st', lock_loop o t shifts numEvals n0 k (map c_flag rem) st = Some st' /\
    linv t shifts d st' (H ++ filter is_locked rem) /\ sizes st' numEvals.
Proof.
  induction rem as [|c rem IH]; intros k st H Hsh HI HS Hk Hlen Hnv Hev; simpl map; cbn [lock_loop].
  - exists st. simpl. rewrite app_nil_r. auto.
  - simpl length in Hlen.
    destruct HS as [SZ1 [SZ2 [SZ3 [SZ4 SZ5]]]].
    unfold is_locked in *. simpl filter in *.
    destruct (negb (is_unconverged (c_flag c))) eqn:EF; simpl andb.
    + destruct (Nat.ltb_spec (l_num st) numEvals); [|lia].
      destruct (Hnv 0 c eq_refl) as [N1 N2]. rewrite Nat.add_0_r in N1, N2.
      assert (N3 := Hev 0 c eq_refl). rewrite Nat.add_0_r in N3.
      unfold get. rewrite N1. cbn [bind].
      rewrite put_some by lia. cbn [bind].
      rewrite N3. cbn [bind]. rewrite N2. cbn [bind].
      rewrite put_some by lia. cbn [bind].
      set (norms1 := upd (l_norms st) (l_num st) (c_norm c)).
      set (evecs1 := upd (l_evecs st) (l_num st) (c_vec c)).
      assert (LN1 : length norms1 = numEvals) by (unfold norms1; rewrite length_upd; auto).
      destruct (insertionSort_spec t shifts d (c_val c) (l_evals st) (c_norm c) norms1
                 (c_flag c) (l_flags st) (l_perm st) (l_num st)) as
        [i [ev' [no' [fl' [pe' [E [Hi [L1 [L2 [L3 [L4 [F1 [F2 [F3 [F4 [R1 [R2 [R3 O]]]]]]]]]]]]]]]]]];
        auto; try lia.
      rewrite E. cbn [bind].
      assert (Fn : firstn (l_num st) norms1 = firstn (l_num st) (l_norms st)).
      { apply nth_error_ext. intros q. rewrite !nth_error_firstn.
        destruct (Nat.ltb_spec q (l_num st)); auto. unfold norms1. apply nth_error_upd_neq. lia. }
      assert (HP := li_perm _ _ _ _ _ HI).
      assert (HN := li_num _ _ _ _ _ HI).
      assert (Hold : forall q, In q (firstn (l_num st) (l_perm st)) -> q < length H).
      { intros q Hq. rewrite <- HN. eapply is_perm_in; eauto. }
      edestruct (IH (S k) (mkL ev' no' fl' pe' evecs1 (S (l_num st))) (H ++ [c])) as [st' [E' [I' S']]]; auto.
      * constructor; simpl l_num; simpl l_evals; simpl l_norms; simpl l_flags; simpl l_perm; simpl l_evecs.
        -- rewrite app_length. simpl. lia.
        -- rewrite F4. apply insert_at_is_perm. auto.
        -- intros c0. rewrite F1, F4, (li_evals _ _ _ _ _ HI c0).
           unfold gather at 2. rewrite map_insert_at, map_insert_at. f_equal.
           ++ rewrite HN. rewrite app_nth2, Nat.sub_diag by lia. auto.
           ++ f_equal. symmetry. apply gather_app_old. auto.
        -- intros c0. rewrite F2, F4, Fn, (li_norms _ _ _ _ _ HI c0).
           unfold gather at 2. rewrite map_insert_at, map_insert_at. f_equal.
           ++ rewrite HN. rewrite app_nth2, Nat.sub_diag by lia. auto.
           ++ f_equal. symmetry. apply gather_app_old. auto.
        -- intros c0. rewrite F3, F4, (li_flags _ _ _ _ _ HI c0).
           unfold gather at 2. rewrite map_insert_at, map_insert_at. f_equal.
           ++ rewrite HN. rewrite app_nth2, Nat.sub_diag by lia. auto.
           ++ f_equal. symmetry. apply gather_app_old. auto.
        -- rewrite map_app, <- (li_vecs _ _ _ _ _ HI). simpl map.
           apply nth_error_ext. intros q. rewrite nth_error_firstn.
           unfold evecs1. rewrite nth_error_upd by lia.
           assert (LL : length (firstn (l_num st) (l_evecs st)) = l_num st) by (rewrite firstn_length; lia).
           destruct (Nat.ltb_spec q (S (l_num st))).
           ++ destruct (Nat.eq_dec (l_num st) q).
              ** subst q. rewrite nth_error_app2, LL, Nat.sub_diag by lia. auto.
              ** rewrite nth_error_app1 by lia. rewrite nth_error_firstn.
                 destruct (Nat.ltb_spec q (l_num st)); auto; lia.
           ++ rewrite nth_error_app2 by lia. rewrite LL.
              destruct (q - l_num st) as [|[|m]] eqn:EQ; try lia; auto.
        -- intros L HC. apply O; auto. apply (li_ord _ _ _ _ _ HI); auto.
      * unfold sizes; simpl. unfold evecs1. rewrite length_upd. repeat split; lia.
      * simpl l_num. lia.
      * lia.
      * simpl. intros j c' Hj. destruct (Hnv (S j) c' Hj) as [M1 M2].
        replace (n0 + S k + j) with (n0 + k + S j) by lia.
        split.
        -- rewrite R2 by lia. unfold norms1. rewrite nth_error_upd_neq by lia. auto.
        -- unfold evecs1. rewrite nth_error_upd_neq by lia. auto.
      * cbn [l_evals l_num]. intros j c' Hj. rewrite R1 by lia.
        specialize (Hev (S j) c' Hj). rewrite <- Hev. f_equal. lia.
      * exists st'. split; auto. split; auto.
        rewrite <- app_assoc in I'. simpl in I'. auto.
    + destruct (IH (S k) st H) as [st' [E' [I' S']]]; auto; try lia.
      * repeat split; auto.
      * intros j c' Hj. destruct (Hnv (S j) c' Hj).
        replace (n0 + S k + j) with (n0 + k + S j) by lia. auto.
      * exists st'. auto.
Qed.

Lemma write_from_spec : forall (B : Type) (l a : list B) k,
  k + length l <= length a ->
  exists a', write_from a k l = Some a' /\ length a' = length a /\
    (forall j x, nth_error l j = Some x -> nth_error a' (k + j) = Some x) /\
    (forall q, q < k -> nth_error a' q = nth_error a q).
Proof.
  induction l as [|x l IH]; intros a k H; simpl in *.
  - exists a. repeat split; auto. intros [|j] x Hx; discriminate.
  - rewrite put_some by lia. simpl.
    destruct (IH (upd a k x) (S k)) as [a' [E [L [G F]]]]; rewrite ?length_upd; try lia.
    rewrite length_upd in L. exists a'. split; auto. split; auto. split.
    + intros [|j] y Hy; simpl in Hy.
      * inversion Hy; subst. rewrite Nat.add_0_r, F by lia. apply nth_error_upd_eq. lia.
      * replace (k + S j) with (S k + j) by lia. auto.
    + intros q Hq. rewrite F by lia. apply nth_error_upd_neq. lia.
Qed.

Lemma fill_evals_spec : forall (cs : list cand) evals nl numEvals j,
  length evals = numEvals -> nl + j + length cs <= numEvals ->
  exists evals', fill_evals evals nl numEvals j (map (fun c => (c_val c, c_flag c)) cs)
      = Some (evals', map c_flag cs) /\ length evals' = length evals /\
    (forall q, q < nl + j -> nth_error evals' q = nth_error evals q) /\
    (forall i c, nth_error (filter is_locked cs) i = Some c ->
        nth_error evals' (nl + j + i) = Some (c_val c)).
Proof.
  induction cs as [|c cs IH]; intros evals nl numEvals j HL HB; simpl in *.
  - exists evals. repeat split; auto. intros [|i] c Hc; discriminate.
  - unfold is_locked at 1. destruct (is_unconverged (c_flag c)) eqn:EF; simpl.
    + destruct (IH evals nl numEvals j) as [e' [E [L [F G]]]]; try lia.
      rewrite E. cbn [bind fst snd].
      exists e'. split; [|auto]. destruct (c_flag c); simpl in EF; try discriminate. auto.
    + destruct (Nat.ltb_spec (nl + j) numEvals); [|lia].
      rewrite put_some by lia. cbn [bind].
      destruct (IH (upd evals (nl + j) (c_val c)) nl numEvals (S j)) as [e' [E [L [F G]]]].
      { rewrite length_upd; auto. } { lia. }
      rewrite length_upd in L.
      rewrite E. cbn [bind fst snd]. exists e'. split; auto. split; auto. split.
      * intros q Hq. rewrite F by lia. apply nth_error_upd_neq. lia.
      * intros [|i] c' Hc'; simpl in Hc'.
        -- inversion Hc'; subst. rewrite Nat.add_0_r, F by lia. apply nth_error_upd_eq. lia.
        -- replace (nl + j + S i) with (nl + S j + i) by lia. auto.
Qed.

Lemma firstn_same : forall (B : Type) (a b : list B) n,
  (forall q, q < n -> nth_error a q = nth_error b q) -> firstn n a = firstn n b.
Proof.
  intros. apply nth_error_ext. intros q. rewrite !nth_error_firstn.
  destruct (Nat.ltb_spec q n); auto.
Qed.

Lemma lock_round_spec : forall t shifts d numEvals st H cands,
  shifts <> [] \/ extreme t = true ->
  linv t shifts d st H -> sizes st numEvals ->
  length H + length cands <= numEvals ->
  exists st', lock_round o t shifts numEvals st cands = Some st' /\
    linv t shifts d st' (H ++ filter is_locked cands) /\ sizes st' numEvals.
Proof.
  intros t shifts d numEvals st H cands Hsh HI HS HB.
  destruct HS as [SZ1 [SZ2 [SZ3 [SZ4 SZ5]]]].
  pose proof (li_num _ _ _ _ _ HI) as HN.
  unfold lock_round.
  destruct (write_from_spec _ (map c_vec cands) (l_evecs st) (l_num st)) as [ev1 [E1 [L1 [G1 F1]]]].
  { rewrite map_length. lia. }
  destruct (write_from_spec _ (map c_norm cands) (l_norms st) (l_num st)) as [no1 [E2 [L2 [G2 F2]]]].
  { rewrite map_length. lia. }
  destruct (fill_evals_spec cands (l_evals st) (l_num st) numEvals 0) as [el1 [E3 [L3 [F3 G3]]]]; auto; try lia.
  rewrite E1. cbn [bind]. rewrite E2. cbn [bind]. rewrite E3. cbn [bind fst snd].
  rewrite Nat.add_0_r in *.
  apply lock_loop_spec with (d := d); auto; simpl l_num; try lia.
  - constructor; simpl l_num; simpl l_evals; simpl l_norms; simpl l_flags; simpl l_perm; simpl l_evecs; auto.
    + apply (li_perm _ _ _ _ _ HI).
    + intros c0. rewrite <- (li_evals _ _ _ _ _ HI c0). apply firstn_same; auto.
    + intros c0. rewrite <- (li_norms _ _ _ _ _ HI c0). apply firstn_same; auto.
    + intros c0. apply (li_flags _ _ _ _ _ HI).
    + rewrite <- (li_vecs _ _ _ _ _ HI). apply firstn_same; auto.
    + intros L HC. rewrite (firstn_same _ el1 (l_evals st)); auto. apply (li_ord _ _ _ _ _ HI); auto.
  - unfold sizes; simpl. repeat split; lia.
  - intros j c Hc. simpl. rewrite Nat.add_0_r. split.
    + apply G2. rewrite nth_error_map, Hc. auto.
    + apply G1. rewrite nth_error_map, Hc. auto.
Qed.

(** Every round proposes at most numEvals - numLocked pairs
    (restart.c: numPacked = min(numConverged, numEvals) - numLocked). *)
Fixpoint rounds_fit (numEvals done : nat) (rounds : list (list cand)) : Prop :=
  match rounds with
  | [] => True
  | cs :: rest => done + length cs <= numEvals /\
                  rounds_fit numEvals (done + length (filter is_locked cs)) rest
  end.

Lemma lock_run_spec : forall t shifts d numEvals rounds st H,
  shifts <> [] \/ extreme t = true ->
  linv t shifts d st H -> sizes st numEvals ->
  rounds_fit numEvals (length H) rounds ->
  exists st', lock_run o t shifts numEvals st rounds = Some st' /\
    linv t shifts d st' (H ++ filter is_locked (concat rounds)) /\ sizes st' numEvals.
Proof.
  induction rounds as [|cs rest IH]; intros st H Hsh HI HS HF; simpl in *.
  - exists st. rewrite app_nil_r. auto.
  - destruct HF as [HF1 HF2].
    destruct (lock_round_spec t shifts d numEvals st H cs) as [st1 [E [I1 S1]]]; auto.
    rewrite E. cbn [bind].
    destruct (IH st1 (H ++ filter is_locked cs)) as [st2 [E2 [I2 S2]]]; auto.
    { rewrite app_length. auto. }
    exists st2. split; auto. split; auto.
    rewrite filter_app, app_assoc. auto.
Qed.

Lemma linv_init : forall t shifts d numEvals evals norms flags evecs,
  linv t shifts d (lock_init numEvals evals norms flags evecs) [].
Proof.
  intros. constructor; simpl; auto.
  - apply Permutation_refl.
  - intros _ _ k a b Hk. destruct k; discriminate.
Qed.

(** The pairs, after the final reordering of the vectors. *)
Lemma lock_final : forall t shifts d numEvals st H,
  linv t shifts d st H -> sizes st numEvals -> l_num st <= numEvals ->
  exists vecs p, final_evecs st = Some vecs /\ is_perm p (length H) /\
    forall i k, nth_error p i = Some k -> exists c,
      nth_error H k = Some c /\
      nth_error (l_evals st) i = Some (c_val c) /\
      nth_error (l_norms st) i = Some (c_norm c) /\
      nth_error (l_flags st) i = Some (c_flag c) /\
      nth_error vecs i = Some (c_vec c).
Proof.
  intros t shifts d numEvals st H HI [SZ1 [SZ2 [SZ3 [SZ4 SZ5]]]] Hle.
  pose proof (li_num _ _ _ _ _ HI) as HN.
  pose proof (li_perm _ _ _ _ _ HI) as HP.
  set (p := firstn (l_num st) (l_perm st)) in *.
  assert (HF : permute_vecs (l_evecs st) (l_num st) (l_perm st)
             = permute_vecs (l_evecs st) (l_num st) p).
  { unfold permute_vecs, p. rewrite firstn_firstn, Nat.min_id. auto. }
  assert (LV : length (firstn (l_num st) (l_evecs st)) = l_num st) by (rewrite firstn_length; lia).
  destruct H as [|c0 H'] eqn:EH.
  - assert (Hz : l_num st = 0) by (simpl in HN; auto).
    assert (Hp0 : p = []).
    { unfold p. rewrite Hz. auto. }
    exists (l_evecs st), []. unfold final_evecs. rewrite HF, Hz, Hp0.
    split; [reflexivity|]. split; [apply Permutation_refl|].
    intros [|i] k Hk; discriminate.
  - rewrite <- EH in *.
    set (vs := firstn (l_num st) (l_evecs st)) in *.
    set (rest := skipn (l_num st) (l_evecs st)).
    set (x0 := c_vec c0).
    exists (gather x0 vs p ++ rest), p.
    split.
    { unfold final_evecs. rewrite HF.
      rewrite <- (firstn_skipn (l_num st) (l_evecs st)). fold vs. fold rest.
      apply permute_vecs_gathers; auto. apply gathered_gather.
      intros k Hk. rewrite LV. eapply is_perm_in; eauto. }
    split. { rewrite <- HN. auto. }
    intros i k Hik.
    assert (Hi : i < l_num st).
    { rewrite <- (is_perm_length _ _ HP). apply nth_error_Some. congruence. }
    assert (Hk : k < length H).
    { rewrite <- HN. eapply is_perm_in; eauto. eapply nth_error_In; eauto. }
    destruct (nth_error H k) as [c|] eqn:EC; [|apply nth_error_None in EC; lia].
    assert (Hg : nth_error (gather c0 H p) i = Some c).
    { unfold gather. rewrite (map_nth_error _ _ _ Hik).
      f_equal. apply nth_error_nth. auto. }
    exists c. split; auto.
    assert (HX : forall (B : Type) (l : list B), nth_error (firstn (l_num st) l) i = nth_error l i).
    { intros. rewrite nth_error_firstn. destruct (Nat.ltb_spec i (l_num st)); auto; lia. }
    split; [|split; [|split]].
    + rewrite <- HX, (li_evals _ _ _ _ _ HI c0). fold p. apply map_nth_error. auto.
    + rewrite <- HX, (li_norms _ _ _ _ _ HI c0). fold p. apply map_nth_error. auto.
    + rewrite <- HX, (li_flags _ _ _ _ _ HI c0). fold p. apply map_nth_error. auto.
    + rewrite nth_error_app1.
      * unfold gather. rewrite (map_nth_error _ _ _ Hik). f_equal.
        unfold vs. rewrite (li_vecs _ _ _ _ _ HI).
        apply nth_error_nth. rewrite nth_error_map, EC. auto.
      * unfold gather. rewrite map_length, (is_perm_length _ _ HP). auto.
Qed.

(** From adjacent order to order of all pairs in a run of equal shifts. *)
Lemma key_le_trans : forall t s a b c, vlaws o ->
  key_le t s a b -> key_le t s b c -> key_le t s a c.
Proof.
  intros t s a b c L H1 H2. destruct t; simpl in *; eapply (vl_trans o L); eauto.
Qed.

Lemma adj_to_all : forall t shifts d l, vlaws o -> adj_ordered t shifts d l ->
  forall p q a b, p < q -> nth_error l p = Some a -> nth_error l q = Some b ->
    (extreme t = true \/ forall k, p <= k <= q -> shift_at shifts d k = shift_at shifts d q) ->
    key_le t (shift_at shifts d q) a b.
Proof.
  intros t shifts d l L HA p q. revert p.
  induction q as [|q IH]; intros p a b Hpq Ha Hb Hs; [lia|].
  destruct (Nat.eq_dec p q).
  - subst. apply (HA q a b); auto. destruct Hs as [|Hs]; auto.
  - assert (exists m, nth_error l q = Some m) as [m Hm].
    { destruct (nth_error l q) eqn:E; eauto.
      apply nth_error_None in E. assert (S q < length l) by (apply nth_error_Some; congruence). lia. }
    apply (key_le_trans t _ a m b L).
    + assert (HK : key_le t (shift_at shifts d q) a m).
      { apply (IH p); auto; [lia|]. destruct Hs as [|Hs]; auto. right.
        intros k Hk. rewrite (Hs k), (Hs q) by lia. auto. }
      destruct Hs as [Hs|Hs].
      * destruct t; try discriminate; exact HK.
      * rewrite <- (Hs q) by lia. auto.
    + apply (HA q m b); auto. destruct Hs as [|Hs]; auto. right. apply Hs. lia.
Qed.

End L.
