From Coq Require Import List Arith Lia Bool Permutation.
From Verif Require Import Base PermModel PermProofs InnerModel.
Import ListNotations.

Lemma upd_upd_perm : forall (p : list nat) i j x y n,
  is_perm p n -> nth_error p i = Some x -> nth_error p j = Some y ->
  is_perm (upd (upd p i y) j x) n.
Proof.
  intros p i j x y n Hp Hi Hj.
  pose proof (is_perm_length _ _ Hp) as Hl.
  assert (Hil : i < length p) by (apply nth_error_Some; congruence).
  assert (Hjl : j < length p) by (apply nth_error_Some; congruence).
  apply is_perm_intro.
  - rewrite !length_upd. auto.
  - apply NoDup_nth_error. intros a b Ha Hab. rewrite !length_upd in Ha.
    assert (Hinj : forall a b z, nth_error p a = Some z -> nth_error p b = Some z -> a = b).
    { intros a' b' z H1 H2. eapply is_perm_inj; eauto. }
    assert (Hx : forall a, a < length p -> nth_error (upd (upd p i y) j x) a =
       if a =? j then Some x else if a =? i then Some y else nth_error p a).
    { intros c Hc. destruct (Nat.eqb_spec c j) as [->|N].
      - rewrite nth_error_upd_eq; auto. rewrite length_upd; auto.
      - rewrite nth_error_upd_neq by auto. destruct (Nat.eqb_spec c i) as [->|N2].
        + rewrite nth_error_upd_eq; auto.
        + rewrite nth_error_upd_neq by auto. reflexivity. }
    assert (Hb : b < length p).
    { rewrite Hx in Hab by auto. rewrite <- (length_upd _ p i y), <- (length_upd _ _ j x).
      apply nth_error_Some. rewrite <- Hab.
      destruct (a =? j); [discriminate|]. destruct (a =? i); [discriminate|].
      apply nth_error_Some. auto. }
    rewrite !Hx in Hab by auto.
    destruct (Nat.eqb_spec a j) as [->|Na]; destruct (Nat.eqb_spec b j) as [->|Nb]; auto.
    + destruct (Nat.eqb_spec b i) as [->|Nb2].
      * assert (x = y) by congruence. subst. eapply Hinj; eauto.
      * exfalso. apply Nb2. eapply Hinj; eauto.
    + destruct (Nat.eqb_spec a i) as [->|Na2].
      * assert (x = y) by congruence. subst. eapply Hinj; eauto.
      * exfalso. apply Na2. eapply Hinj; eauto.
    + destruct (Nat.eqb_spec a i) as [->|Na2]; destruct (Nat.eqb_spec b i) as [->|Nb2]; auto.
      * exfalso. apply Nb. eapply Hinj; eauto.
      * exfalso. apply Na. eapply Hinj; eauto.
      * destruct (nth_error p a) as [z|] eqn:Ez; [|apply nth_error_None in Ez; lia].
        eapply Hinj; eauto.
  - intros k Hk. apply In_nth_error in Hk. destruct Hk as [a Ha].
    assert (a < length p).
    { rewrite <- (length_upd _ p i y), <- (length_upd _ _ j x). apply nth_error_Some. congruence. }
    destruct (Nat.eq_dec a j) as [->|N].
    + rewrite nth_error_upd_eq in Ha by (rewrite length_upd; auto). inversion Ha; subst.
      eapply is_perm_in; eauto. eapply nth_error_In; eauto.
    + rewrite nth_error_upd_neq in Ha by auto. destruct (Nat.eq_dec a i) as [->|N2].
      * rewrite nth_error_upd_eq in Ha by auto. inversion Ha; subst.
        eapply is_perm_in; eauto. eapply nth_error_In; eauto.
      * rewrite nth_error_upd_neq in Ha by auto.
        eapply is_perm_in; eauto. eapply nth_error_In; eauto.
Qed.

Lemma perm_scan_found : forall k i p val pos q,
  nth_error p q = Some val -> i <= q < i + k ->
  (forall j, i <= j < q -> nth_error p j <> Some val) -> pos < length p ->
  exists y, nth_error p pos = Some y /\
    perm_scan k i p val pos = Some (upd (upd p q y) pos val).
Proof.
  induction k as [|k IH]; intros i p val pos q Hq Hr Hf Hpos; [lia|].
  cbn [perm_scan]. unfold get.
  assert (Hql : q < length p) by (apply nth_error_Some; congruence).
  destruct (nth_error p pos) as [y|] eqn:Ey; [|apply nth_error_None in Ey; lia].
  destruct (Nat.eq_dec i q) as [->|N].
  - rewrite Hq. cbn [bind]. rewrite Nat.eqb_refl. cbn [bind].
    unfold put. rewrite (proj2 (Nat.ltb_lt _ _) Hql). cbn [bind].
    rewrite length_upd, (proj2 (Nat.ltb_lt _ _) Hpos). eauto.
  - destruct (nth_error p i) as [x|] eqn:Ex; [|apply nth_error_None in Ex; lia].
    cbn [bind]. destruct (Nat.eqb_spec x val) as [->|Nx].
    + exfalso. apply (Hf i); auto. lia.
    + destruct (IH (S i) p val pos q) as (y' & H1 & H2); auto; try lia.
      { intros j Hj. apply Hf. lia. }
      exists y'. split; [congruence|exact H2].
Qed.

Lemma perm_set_ok : forall p n val pos, is_perm p n -> val < n -> pos < n ->
  exists q y, nth_error p q = Some val /\ nth_error p pos = Some y /\
    perm_set p val pos n = Some (upd (upd p q y) pos val).
Proof.
  intros p n val pos Hp Hv Hpos.
  pose proof (is_perm_length _ _ Hp) as Hl.
  assert (In val p). { eapply Permutation_in; [symmetry; exact Hp|]. apply in_seq. lia. }
  apply In_nth_error in H. destruct H as [q Hq].
  assert (Hql : q < length p) by (apply nth_error_Some; congruence).
  destruct (perm_scan_found n 0 p val pos q) as (y & H1 & H2); auto; try lia.
  { intros j Hj Hc. assert (j = q) by (eapply is_perm_inj; eauto). lia. }
  exists q, y. auto.
Qed.

Definition ntrue (l : list bool) : nat := length (filter (fun b => b) l).

Lemma ntrue_le : forall l, ntrue l <= length l.
Proof.
  induction l as [|b l IH]; cbn [ntrue filter length] in *; auto.
  unfold ntrue in *. destruct b; cbn [length filter]; lia.
Qed.

(** Invariant of the marking loop: positions from n-conv on hold the finished
    systems seen so far. *)
Lemma mark_ok : forall all rest pre p0 n conv,
  all = pre ++ rest -> length all = n -> conv = ntrue pre ->
  is_perm p0 n ->
  (forall j k, nth_error p0 j = Some k ->
     (n - conv <= j <-> (k < length pre /\ nth_error all k = Some true))) ->
  exists p1, mark rest (length pre) conv n p0 = Some (p1, ntrue all) /\
    is_perm p1 n /\
    (forall j k, nth_error p1 j = Some k ->
       (n - ntrue all <= j <-> nth_error all k = Some true)).
Proof.
  intros all. induction rest as [|b rest IH]; intros pre p0 n conv Ha Hn Hc Hp Hinv.
  - rewrite app_nil_r in Ha. subst pre. exists p0. cbn [mark]. subst conv.
    split; [reflexivity|]. split; [exact Hp|].
    intros j k Hk. rewrite (Hinv j k Hk). split; [tauto|]. intros H. split; [|auto].
    apply nth_error_Some. congruence.
  - assert (Hi : nth_error all (length pre) = Some b).
    { rewrite Ha, nth_error_app2, Nat.sub_diag by lia. reflexivity. }
    assert (Hpre : length pre < n).
    { rewrite <- Hn. apply nth_error_Some. congruence. }
    assert (Ha' : all = (pre ++ [b]) ++ rest) by (rewrite <- app_assoc; exact Ha).
    assert (Hl' : length (pre ++ [b]) = S (length pre)) by (rewrite app_length; cbn; lia).
    destruct b; cbn [mark].
    + pose proof (ntrue_le pre) as Hle.
      assert (Hpos : n - S conv < n) by lia.
      destruct (perm_set_ok p0 n (length pre) (n - S conv) Hp Hpre Hpos) as (q & y & H1 & H2 & H3).
      rewrite H3. cbn [bind]. rewrite <- Hl'.
      pose proof (is_perm_length _ _ Hp) as Hlp.
      assert (Hql : q < length p0) by (apply nth_error_Some; congruence).
      apply IH; auto.
      * subst conv. unfold ntrue. rewrite filter_app, app_length. cbn. lia.
      * eapply upd_upd_perm; eauto.
      * intros j k Hk. rewrite Hl'.
        (* the value at q is not yet in the tail *)
        assert (Hq : ~ (n - conv <= q)).
        { intros Hge. apply (Hinv q (length pre)) in Hge; auto. lia. }
        destruct (Nat.eq_dec j (n - S conv)) as [->|N].
        -- rewrite nth_error_upd_eq in Hk by (rewrite length_upd; lia).
           inversion Hk; subst k. split; [intros _; split; [lia|exact Hi]|lia].
        -- rewrite nth_error_upd_neq in Hk by auto.
           destruct (Nat.eq_dec j q) as [->|N2].
           ++ rewrite nth_error_upd_eq in Hk by auto. inversion Hk; subst k.
              split; [lia|]. intros [G1 G2]. exfalso.
              destruct (Nat.eq_dec y (length pre)) as [->|Ny].
              ** assert (n - S conv = q) by (eapply is_perm_inj; eauto). lia.
              ** assert (n - conv <= n - S conv) by (apply (Hinv _ y H2); split; [lia|auto]). lia.
           ++ rewrite nth_error_upd_neq in Hk by auto.
              split.
              ** intros Hge. assert (n - conv <= j) by lia.
                 apply (Hinv j k Hk) in H. destruct H. split; [lia|auto].
              ** intros [G1 G2].
                 destruct (Nat.eq_dec k (length pre)) as [->|Nk].
                 --- exfalso. apply N2. eapply is_perm_inj; eauto.
                 --- assert (n - conv <= j) by (apply (Hinv j k Hk); split; [lia|auto]). lia.
    + rewrite <- Hl'. apply IH; auto.
      * subst conv. unfold ntrue. rewrite filter_app, app_length. cbn. lia.
      * intros j k Hk. rewrite Hl'. rewrite (Hinv j k Hk). split.
        -- intros [G1 G2]. split; [lia|auto].
        -- intros [G1 G2]. split; [|auto].
           destruct (Nat.eq_dec k (length pre)) as [->|Nk]; [congruence|lia].
Qed.

Lemma mark_spec : forall fin, exists p0,
  mark fin 0 0 (length fin) (seq 0 (length fin)) = Some (p0, ntrue fin) /\
  is_perm p0 (length fin) /\
  (forall j k, nth_error p0 j = Some k ->
     (length fin - ntrue fin <= j <-> nth_error fin k = Some true)).
Proof.
  intros fin. apply (mark_ok fin fin [] (seq 0 (length fin)) (length fin) 0); auto.
  - apply Permutation_refl.
  - intros j k Hk. cbn [length]. rewrite Nat.sub_0_r. split; [|lia].
    intros Hj. exfalso. assert (j < length (seq 0 (length fin))) by (apply nth_error_Some; congruence).
    rewrite seq_length in H. lia.
Qed.

(** Permuting the first n entries of an array. *)
Lemma permute_first : forall (a : list nat) n p0, is_perm p0 n -> n <= length a ->
  exists out, permute_vecs a n p0 = Some (out ++ skipn n a) /\
    gathered (firstn n a) p0 out /\ length out = n.
Proof.
  intros a n p0 Hp Hn.
  pose proof (is_perm_length _ _ Hp) as Hl.
  exists (gather 0 (firstn n a) p0).
  assert (Hf : length (firstn n a) = n) by (apply firstn_length_le; auto).
  assert (Hg : gathered (firstn n a) p0 (gather 0 (firstn n a) p0)).
  { apply gathered_gather. intros k Hk. rewrite Hf. eapply is_perm_in; eauto. }
  split; [|split; [exact Hg|]].
  - rewrite <- (firstn_skipn n a) at 1. apply permute_vecs_gathers; auto.
  - unfold gather. rewrite map_length. auto.
Qed.

Definition rearr (n : nat) (p0 a : list nat) : list nat :=
  gather 0 (firstn n a) p0 ++ skipn n a.

Lemma permute_rearr : forall a n p0, is_perm p0 n -> n <= length a ->
  permute_vecs a n p0 = Some (rearr n p0 a).
Proof.
  intros a n p0 Hp Hn.
  destruct (permute_first a n p0 Hp Hn) as (out & H1 & H2 & H3).
  rewrite H1. unfold rearr. f_equal. f_equal. eapply gathered_unique; [exact H2|].
  apply gathered_gather. intros k Hk. rewrite firstn_length_le by auto. eapply is_perm_in; eauto.
Qed.

Lemma length_rearr : forall a n p0, is_perm p0 n -> n <= length a ->
  length (rearr n p0 a) = length a.
Proof.
  intros a n p0 Hp Hn. unfold rearr, gather.
  rewrite app_length, map_length, skipn_length, (is_perm_length _ _ Hp). lia.
Qed.

Lemma permute_all_rearr : forall arrs n p0, is_perm p0 n ->
  (forall a, In a arrs -> n <= length a) ->
  permute_all arrs n p0 = Some (map (rearr n p0) arrs).
Proof.
  induction arrs as [|a t IH]; intros n p0 Hp Ha; auto.
  cbn [permute_all map]. rewrite permute_rearr by (auto; apply Ha; left; auto).
  cbn [bind]. rewrite IH by (auto; intros; apply Ha; right; auto). reflexivity.
Qed.

Lemma permute_times_ok : forall m a n p0, is_perm p0 n -> n <= length a ->
  exists b, permute_times m a n p0 = Some b /\ length b = length a.
Proof.
  induction m as [|m IH]; intros a n p0 Hp Hn; cbn [permute_times]; eauto.
  rewrite permute_rearr by auto. cbn [bind].
  destruct (IH (rearr n p0 a) n p0) as (b & H1 & H2); auto.
  { rewrite length_rearr; auto. }
  exists b. split; auto. rewrite H2. apply length_rearr; auto.
Qed.

(** Position of each system after a phase. *)
Lemma rearr_nth : forall a n p0 j k, is_perm p0 n -> n <= length a ->
  nth_error p0 j = Some k -> nth_error (rearr n p0 a) j = nth_error a k.
Proof.
  intros a n p0 j k Hp Hn Hk. unfold rearr.
  pose proof (is_perm_length _ _ Hp) as Hl.
  assert (Hj : j < length p0) by (apply nth_error_Some; congruence).
  assert (Hkn : k < n) by (eapply is_perm_in; eauto; eapply nth_error_In; eauto).
  rewrite nth_error_app1 by (unfold gather; rewrite map_length; auto).
  destruct (gathered_gather _ 0 (firstn n a) p0) as [_ G].
  { intros q Hq. rewrite firstn_length_le by auto. eapply is_perm_in; eauto. }
  destruct (G j k Hk) as [_ ->].
  rewrite <- (firstn_skipn n a) at 2. rewrite nth_error_app1; auto.
  rewrite firstn_length_le; auto.
Qed.

Lemma rearr_beyond : forall a n p0 j, is_perm p0 n -> n <= j ->
  n <= length a -> nth_error (rearr n p0 a) j = nth_error a j.
Proof.
  intros a n p0 j Hp Hj Hn. unfold rearr.
  pose proof (is_perm_length _ _ Hp) as Hl.
  rewrite nth_error_app2 by (unfold gather; rewrite map_length; lia).
  unfold gather. rewrite map_length, Hl.
  rewrite <- (firstn_skipn n a) at 2.
  rewrite nth_error_app2 by (rewrite firstn_length_le; auto).
  rewrite firstn_length_le by auto. reflexivity.
Qed.

Lemma rearr_perm : forall a n m p0, is_perm p0 n -> n <= length a -> is_perm a m ->
  is_perm (rearr n p0 a) m.
Proof.
  intros a n m p0 Hp Hn Ha. unfold is_perm in *. rewrite <- Ha. unfold rearr.
  rewrite <- (firstn_skipn n a) at 3. apply Permutation_app_tail.
  apply gather_Permutation. rewrite firstn_length_le; auto.
Qed.

(** What holds in every reachable state. *)
Record aligned (n : nat) (s : inner) : Prop := {
  al_bs : bs s <= n;
  al_perm : is_perm (sys s) n;
  al_moved : forall a, In a (moved s) -> a = sys s;
  al_x : length (xcol s) = n
}.

Lemma phase_spec : forall nx n fin s, aligned n s -> length fin = bs s ->
  exists s' p0, phase nx fin s = Some s' /\ is_perm p0 (bs s) /\
    aligned n s' /\ bs s' = bs s - ntrue fin /\
    sys s' = rearr (bs s) p0 (sys s) /\
    length (moved s') = length (moved s) /\
    (nx = 1 -> xcol s = sys s -> xcol s' = sys s') /\ bxcol s' = bxcol s /\
    (forall j k, nth_error p0 j = Some k -> (bs s' <= j <-> nth_error fin k = Some true)).
Proof.
  intros nx n fin s [A1 A2 A3 A4] Hf.
  pose proof (is_perm_length _ _ A2) as Hl.
  destruct (mark_spec fin) as (p0 & M1 & M2 & M3). rewrite Hf in M1, M2, M3.
  unfold phase. rewrite M1. cbn [bind].
  rewrite permute_rearr by (auto; lia). cbn [bind].
  rewrite permute_all_rearr; [|auto|intros a Ha; rewrite (A3 a Ha); lia]. cbn [bind].
  destruct (permute_times_ok nx (xcol s) (bs s) p0) as (b & T1 & T2); [auto|lia|].
  rewrite T1. cbn [bind]. eexists; exists p0. split; [reflexivity|].
  cbn [bs sys moved xcol bxcol].
  split; [exact M2|]. split; [|split; [reflexivity|split; [reflexivity|]]].
  - split; cbn [bs sys moved xcol].
    + lia.
    + apply rearr_perm; auto. lia.
    + intros a Ha. apply in_map_iff in Ha. destruct Ha as (a0 & <- & Ha0).
      rewrite (A3 a0 Ha0). reflexivity.
    + lia.
  - split; [apply map_length|]. split; [|split; [reflexivity|exact M3]].
    intros -> Hx. cbn [permute_times] in T1. rewrite Hx, permute_rearr in T1 by (auto; lia).
    cbn [bind] in T1. inversion T1. reflexivity.
Qed.

Lemma start_aligned : forall n m, aligned n (inner_start n m).
Proof.
  intros n m. split; cbn [bs sys moved xcol inner_start]; auto.
  - apply Permutation_refl.
  - intros a Ha. apply repeat_spec in Ha. exact Ha.
  - apply seq_length.
Qed.

Lemma phases_aligned : forall nx n h s s', aligned n s -> phases nx h s = Some s' -> aligned n s'.
Proof.
  intros nx n. induction h as [|fin h IH]; intros s s' Ha H; cbn [phases] in H.
  - inversion H; subst. auto.
  - destruct (Nat.eqb_spec (length fin) (bs s)) as [Hf|]; [|discriminate].
    destruct (phase_spec nx n fin s Ha Hf) as (s1 & p0 & P1 & P2 & P3 & _).
    rewrite P1 in H. cbn [bind] in H. eapply IH; eauto.
Qed.

(** Active systems sit at their own position or come from behind the block. *)
Definition forward (s : inner) : Prop :=
  forall i x, i < bs s -> nth_error (sys s) i = Some x -> x = i \/ bs s <= x.
