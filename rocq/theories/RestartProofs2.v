(** Proofs about RestartModel.v: the block after soft locking, locking, the
    merge of failed pairs, the reordering before an expansion, map_vecs. *)
From Verif Require Import Base Values SelectModel RestartModel ScatterProofs RestartProofs.
From Coq Require Import List Arith ZArith Lia Bool Permutation Sorted.
Import ListNotations.

Lemma nth_error_firstn' : forall A n (l : list A) j, j < n -> nth_error (firstn n l) j = nth_error l j.
Proof.
  induction n as [|n IH]; intros l j H; [lia|]. destruct l as [|a l]; [reflexivity|].
  destruct j as [|j]; [reflexivity|]. cbn. apply IH. lia.
Qed.
Lemma nth_error_skipn' : forall A n (l : list A) j, nth_error (skipn n l) j = nth_error l (n + j).
Proof.
  induction n as [|n IH]; intros l j; [reflexivity|]. destruct l as [|a l]; [now destruct j|]. apply IH.
Qed.

(* ------------------------------------------------------------------ *)
(** iev after soft locking *)
Lemma find_back_miss : forall h v cnt j acc, j + cnt <= length h ->
  (forall q, j <= q < j + cnt -> nth_error h q <> Some v) ->
  find_back h v cnt j acc = Some acc.
Proof.
  induction cnt as [|c IH]; intros j acc HL HM; [reflexivity|].
  cbn [find_back]. destruct (get_some _ h j) as [x Hx]; [lia|]. rewrite Hx. cbn [bind].
  destruct (Nat.eqb_spec x v) as [->|N]; [exfalso; apply (HM j); [lia|exact Hx]|].
  apply IH; [lia|]. intros q Hq. apply HM. lia.
Qed.

Lemma find_back_hit : forall h v cnt j acc q, j + cnt <= length h ->
  j <= q < j + cnt -> nth_error h q = Some v ->
  (forall q', nth_error h q' = Some v -> q' = q) ->
  find_back h v cnt j acc = Some (Some q).
Proof.
  induction cnt as [|c IH]; intros j acc q HL Hq Hv HU; [lia|].
  cbn [find_back]. destruct (get_some _ h j) as [x Hx]; [lia|]. rewrite Hx. cbn [bind].
  destruct (Nat.eqb_spec x v) as [->|N].
  - assert (j = q) by (apply HU; exact Hx). subst j.
    apply find_back_miss; [lia|]. intros q' Hq' E. apply HU in E. lia.
  - apply IH; auto; [lia|]. destruct (Nat.eq_dec j q) as [->|]; [|lia].
    unfold get in Hx. congruence.
Qed.

Lemma soft_iev_spec : forall h nc rs cnt i iev,
  rs <= length h -> i + cnt <= length iev ->
  (forall q q' v, nth_error h q = Some v -> nth_error h q' = Some v -> q = q') ->
  exists iev', soft_iev h nc rs cnt i iev = Some iev' /\ length iev' = length iev /\
    (forall a, a < i \/ i + cnt <= a -> nth_error iev' a = nth_error iev a) /\
    (forall a q, i <= a < i + cnt -> q < rs -> nth_error h q = Some (nc + a) ->
       nth_error iev' a = Some q) /\
    (forall a, i <= a < i + cnt -> (forall q, q < rs -> nth_error h q <> Some (nc + a)) ->
       nth_error iev' a = nth_error iev a).
Proof.
  induction cnt as [|c IH]; intros i iev Hrs HL HU.
  - exists iev. split; [reflexivity|]. split; [reflexivity|]. split; [reflexivity|].
    split; intros; [lia|reflexivity].
  - cbn [soft_iev].
    assert (HC : (exists q, q < rs /\ nth_error h q = Some (nc + i)) \/
                 (forall q, q < rs -> nth_error h q <> Some (nc + i))).
    { clear - rs. induction rs as [|r IHr]; [right; intros; lia|].
      destruct IHr as [(q & H1 & H2)|H]; [left; exists q; split; auto|].
      destruct (nth_error h r) as [x|] eqn:E.
      - destruct (Nat.eq_dec x (nc + i)) as [->|N]; [left; exists r; auto|].
        right. intros q Hq. destruct (Nat.eq_dec q r) as [->|]; [congruence|]. apply H. lia.
      - right. intros q Hq. destruct (Nat.eq_dec q r) as [->|]; [congruence|]. apply H. lia. }
    destruct HC as [(q & Hq & Hv)|Hm].
    + rewrite (find_back_hit h (nc + i) rs 0 None q); [|lia|lia|exact Hv|intros; eapply HU; eauto].
      cbn [bind]. rewrite put_some by lia. cbn [bind].
      destruct (IH (S i) (upd iev i q)) as (iev' & E & L & Hk & Hh & Hs); auto.
      { rewrite length_upd. lia. }
      rewrite length_upd in L. exists iev'. split; [exact E|]. split; [exact L|]. split; [|split].
      * intros a Ha. rewrite Hk by lia. apply nth_error_upd_neq. lia.
      * intros a q' Ha Hq' Hv'. destruct (Nat.eq_dec a i) as [->|].
        -- rewrite Hk by lia. rewrite (HU q' q _ Hv' Hv). apply nth_error_upd_eq. lia.
        -- apply Hh; auto; lia.
      * intros a Ha Hn. destruct (Nat.eq_dec a i) as [->|]; [exfalso; eapply Hn; eauto|].
        rewrite Hs; [|lia|exact Hn]. apply nth_error_upd_neq. lia.
    + rewrite find_back_miss; [|lia|intros; apply Hm; lia]. cbn [bind].
      destruct (IH (S i) iev) as (iev' & E & L & Hk & Hh & Hs); auto; [lia|].
      exists iev'. split; [exact E|]. split; [exact L|]. split; [|split].
      * intros a Ha. apply Hk. lia.
      * intros a q' Ha Hq' Hv'. destruct (Nat.eq_dec a i) as [->|]; [exfalso; eapply Hm; eauto|].
        apply Hh; auto; lia.
      * intros a Ha Hn. destruct (Nat.eq_dec a i) as [->|]; [apply Hk; lia|]. apply Hs; [lia|exact Hn].
Qed.

(* ------------------------------------------------------------------ *)
(** locking *)
Definition packs (f : flag) (i np numEvals numLocked : nat) (t : target) : bool :=
  negb (is_unconverged f) && (np <? numEvals - numLocked) && eligible i numEvals numLocked t.

Fixpoint lock_cls (fl : list flag) (i ne nl : nat) (t : target) (left k np : nat) : list nat :=
  match fl with
  | [] => []
  | f :: fs =>
      if packs f i np ne nl t then 1 :: lock_cls fs (S i) ne nl t left k (S np)
      else (if k <? left then 0 else 2) :: lock_cls fs (S i) ne nl t left (S k) np
  end.

Fixpoint npack (fl : list flag) (i ne nl : nat) (t : target) (np : nat) : nat :=
  match fl with
  | [] => 0
  | f :: fs => if packs f i np ne nl t then S (npack fs (S i) ne nl t (S np))
               else npack fs (S i) ne nl t np
  end.

Lemma lock_cls_len : forall fl i ne nl t left k np,
  length (lock_cls fl i ne nl t left k np) = length fl.
Proof. induction fl as [|f fs IH]; intros; cbn; auto. destruct (packs _ _ _ _ _ _); cbn; now rewrite IH. Qed.

Lemma lock_cls_lt : forall fl i ne nl t left k np,
  Forall (fun c => c < 3) (lock_cls fl i ne nl t left k np).
Proof.
  induction fl as [|f fs IH]; intros; cbn [lock_cls]; auto.
  destruct (packs _ _ _ _ _ _); [|destruct (k <? left)]; constructor; auto; lia.
Qed.

Lemma lock_perm_scatter : forall cnt flags ne nl t left total i k np b rp,
  i + cnt <= length flags ->
  b 0 = Nat.min k left -> b 1 = left + np -> b 2 = total + Nat.max k left ->
  lock_perm flags ne nl t left total cnt i k np rp =
  (rp' <- scatter (lock_cls (firstn cnt (skipn i flags)) i ne nl t left k np) i b rp;
   Some (rp', np + npack (firstn cnt (skipn i flags)) i ne nl t np)).
Proof.
  induction cnt as [|c IH]; intros flags ne nl t left total i k np b rp HL B0 B1 B2.
  - cbn. now rewrite Nat.add_0_r.
  - cbn [lock_perm]. destruct (get_some _ flags i) as [f Hf]; [lia|]. rewrite Hf. cbn [bind].
    rewrite (window_step _ _ _ _ _ Hf). cbn [lock_cls npack].
    change (negb (is_unconverged f) && (np <? ne - nl) && eligible i ne nl t)
      with (packs f i np ne nl t).
    destruct (packs f i np ne nl t).
    + cbn [scatter]. rewrite B1. destruct (put rp (left + np) i) as [rp'|]; [|reflexivity]. cbn [bind].
      rewrite (IH _ _ _ _ _ _ _ _ _ (bump b 1)); [|lia| | |]; unfold bump; cbn [Nat.eqb]; try lia.
      now rewrite Nat.add_succ_r.
    + destruct (Nat.ltb_spec k left) as [H|H]; cbn [scatter].
      * rewrite B0, Nat.min_l by lia. destruct (put rp k i) as [rp'|]; [|reflexivity]. cbn [bind].
        apply IH; [lia| | |]; unfold bump; cbn [Nat.eqb]; lia.
      * rewrite B2, Nat.max_l by lia. destruct (put rp (total + k) i) as [rp'|]; [|reflexivity]. cbn [bind].
        apply IH; [lia| | |]; unfold bump; cbn [Nat.eqb]; lia.
Qed.

Lemma lock_packed_len : forall fl i ne nl t left k np o,
  length (where_is 1 (lock_cls fl i ne nl t left k np) o) = npack fl i ne nl t np.
Proof.
  induction fl as [|f fs IH]; intros; [reflexivity|]. cbn [lock_cls npack].
  destruct (packs _ _ _ _ _ _); [cbn [where_is Nat.eqb length]; now rewrite IH|].
  destruct (k <? left); cbn [where_is Nat.eqb]; apply IH.
Qed.

Lemma lock_kept_len : forall fl i ne nl t left k np o,
  length (where_is 0 (lock_cls fl i ne nl t left k np) o)
  = Nat.min (left - k) (length fl - npack fl i ne nl t np).
Proof.
  induction fl as [|f fs IH]; intros; [cbn; lia|]. cbn [lock_cls npack].
  assert (HB : forall j m, npack fs j ne nl t m <= length fs).
  { clear. induction fs as [|g gs IHg]; intros; cbn; [lia|].
    destruct (packs _ _ _ _ _ _); [specialize (IHg (S j) (S m))|specialize (IHg (S j) m)]; lia. }
  destruct (packs _ _ _ _ _ _).
  - cbn [where_is Nat.eqb length]. rewrite IH. specialize (HB (S i) (S np)). lia.
  - specialize (HB (S i) np). destruct (Nat.ltb_spec k left); cbn [where_is Nat.eqb length]; rewrite IH; lia.
Qed.

Lemma lock_packed_is : forall fl i ne nl t left k np x,
  nth_error (lock_cls fl i ne nl t left k np) x = Some 1 ->
  exists f, nth_error fl x = Some f /\ flagged f = true /\ eligible (i + x) ne nl t = true.
Proof.
  induction fl as [|f fs IH]; intros i ne nl t left k np x H; [destruct x; discriminate|].
  cbn [lock_cls] in H. destruct (packs f i np ne nl t) eqn:E.
  - destruct x as [|x].
    + exists f. unfold packs in E. apply andb_true_iff in E. destruct E as [E E2].
      apply andb_true_iff in E. rewrite Nat.add_0_r. repeat split; auto. unfold flagged. tauto.
    + cbn in H. destruct (IH _ _ _ _ _ _ _ _ H) as (g & G1 & G2 & G3). exists g.
      rewrite <- plus_n_Sm. auto.
  - destruct x as [|x]; [cbn [nth_error] in H; destruct (k <? left); discriminate|].
    cbn in H. destruct (IH _ _ _ _ _ _ _ _ H) as (g & G1 & G2 & G3). exists g.
    rewrite <- plus_n_Sm. auto.
Qed.

(** kept pairs come before dropped ones. *)
Lemma lock_kept_first : forall fl i ne nl t left k np x y,
  nth_error (lock_cls fl i ne nl t left k np) x = Some 0 ->
  nth_error (lock_cls fl i ne nl t left k np) y = Some 2 -> x < y.
Proof.
  induction fl as [|f fs IH]; intros i ne nl t left k np x y Hx Hy; [destruct x; discriminate|].
  cbn [lock_cls] in Hx, Hy. destruct (packs f i np ne nl t) eqn:E.
  - destruct x as [|x]; [discriminate|]. destruct y as [|y]; [discriminate|]. cbn in Hx, Hy.
    specialize (IH _ _ _ _ _ _ _ _ _ Hx Hy). lia.
  - destruct (Nat.ltb_spec k left) as [H|H].
    + destruct y as [|y]; [discriminate|]. destruct x as [|x]; [lia|]. cbn in Hx, Hy.
      specialize (IH _ _ _ _ _ _ _ _ _ Hx Hy). lia.
    + destruct x as [|x]; [discriminate|]. cbn in Hx. exfalso.
      assert (HIn : In x (where_is 0 (lock_cls fs (S i) ne nl t left (S k) np) 0))
        by (apply where_is_in; rewrite Nat.sub_0_r; split; [lia|auto]).
      assert (L : length (where_is 0 (lock_cls fs (S i) ne nl t left (S k) np) 0) = 0)
        by (rewrite lock_kept_len; lia).
      apply length_zero_iff_nil in L. rewrite L in HIn. destruct HIn.
Qed.

(** the count of restart() and the packing of restart_locking() agree. *)
Lemma restart_count_npack : forall fl i ne nl c t, nl <= ne ->
  let r := restart_count fl i ne nl c t in
  snd r = c + npack (fst r) i ne nl t c /\ length (fst r) = length fl.
Proof.
  induction fl as [|f fs IH]; intros i ne nl c t H r; [cbn; lia|]. subst r. cbn [restart_count].
  assert (HE : (nl + c <? ne) = (c <? ne - nl)).
  { destruct (Nat.ltb_spec (nl + c) ne), (Nat.ltb_spec c (ne - nl)); auto; lia. }
  destruct f; cbn [is_unconverged negb andb fst snd npack length];
    unfold packs; cbn [is_unconverged negb andb]; rewrite ?HE;
    try (destruct (IH (S i) ne nl c t H) as [E L]; rewrite E, L; cbn [npack]; split; [lia|reflexivity]);
    (destruct ((c <? ne - nl) && eligible i ne nl t);
     [destruct (IH (S i) ne nl (S c) t H) as [E L]|destruct (IH (S i) ne nl c t H) as [E L]];
     rewrite L; split; [rewrite E; lia|reflexivity|rewrite E; lia|reflexivity]).
Qed.

Lemma restart_count_bound : forall fl i ne nl c t, nl <= ne -> nl + c <= ne ->
  nl + snd (restart_count fl i ne nl c t) <= ne /\
  c <= snd (restart_count fl i ne nl c t) <= c + length fl.
Proof.
  induction fl as [|f fs IH]; intros i ne nl c t H Hc; [cbn; lia|]. cbn [restart_count length].
  destruct f; cbn [is_unconverged negb andb fst snd]; try (specialize (IH (S i) ne nl c t H Hc); lia);
    (destruct (Nat.ltb_spec (nl + c) ne); cbn [andb];
     [destruct (eligible i ne nl t);
      [specialize (IH (S i) ne nl (S c) t H ltac:(lia)); lia|]|];
     specialize (IH (S i) ne nl c t H Hc); lia).
Qed.

Lemma lock_perm_shape : forall flags ne nl t left total basisSize rp,
  length flags = basisSize -> basisSize <= length rp ->
  total = npack flags 0 ne nl t 0 -> left + total <= basisSize ->
  exists kept packed dropped,
    lock_perm flags ne nl t left total basisSize 0 0 0 rp =
      Some (kept ++ packed ++ dropped ++ skipn basisSize rp, total) /\
    length kept = left /\ length packed = total /\
    is_perm (kept ++ packed ++ dropped) basisSize /\
    StronglySorted lt kept /\ StronglySorted lt packed /\ StronglySorted lt dropped /\
    (forall x y, In x kept -> In y dropped -> x < y) /\
    (forall x, In x packed -> eligible x ne nl t = true /\
       exists f, nth_error flags x = Some f /\ flagged f = true).
Proof.
  intros flags ne nl t left total bs rp HL Hr HT HS.
  set (cs := lock_cls flags 0 ne nl t left 0 0).
  assert (Lc : length cs = bs) by (unfold cs; now rewrite lock_cls_len).
  assert (L1 : length (where_is 1 cs 0) = total) by (unfold cs; rewrite lock_packed_len; lia).
  assert (L0 : length (where_is 0 cs 0) = left).
  { unfold cs. rewrite lock_kept_len, <- HT. lia. }
  assert (HF : Forall (fun c => c < 3) cs) by apply lock_cls_lt.
  exists (where_is 0 cs 0), (where_is 1 cs 0), (where_is 2 cs 0).
  set (b := fun c => match c with 0 => 0 | 1 => left | _ => total + left end).
  destruct (scatter_three cs b rp HF) as (rp' & E1 & E2).
  { reflexivity. } { now rewrite L0. } { rewrite L0, L1. unfold b. lia. } { lia. }
  split; [|split; [exact L0|split; [exact L1|]]].
  { rewrite (lock_perm_scatter bs flags ne nl t left total 0 0 0 b rp); [|lia|reflexivity|unfold b; lia|unfold b; lia].
    change (skipn 0 flags) with flags. rewrite firstn_all2 by lia. fold cs. rewrite E1. cbn [bind].
    rewrite E2, Lc, HT. reflexivity. }
  split. { pose proof (where_is_perm3 cs 0 HF) as HP. rewrite Lc in HP. exact HP. }
  split; [apply where_is_sorted|]. split; [apply where_is_sorted|]. split; [apply where_is_sorted|].
  split.
  - intros x y Hx Hy. apply where_is_in in Hx. apply where_is_in in Hy.
    rewrite Nat.sub_0_r in Hx, Hy. eapply lock_kept_first; [apply Hx|apply Hy].
  - intros x Hx. apply where_is_in in Hx. rewrite Nat.sub_0_r in Hx. destruct Hx as [_ Hx].
    destruct (lock_packed_is _ _ _ _ _ _ _ _ _ Hx) as (f & F1 & F2 & F3). eauto.
Qed.

(* ------------------------------------------------------------------ *)
(** failed pairs *)
Definition fcls (f : flag) : nat := if is_unconverged f then 0 else 1.

Lemma failed_is : forall fl i, failed_first fl i = where_is 0 (map fcls fl) i.
Proof.
  induction fl as [|f t IH]; intro i; [reflexivity|]. cbn. unfold fcls.
  destruct (is_unconverged f); cbn; now rewrite IH.
Qed.
Lemma passed_is : forall fl i, passed_next fl i = where_is 1 (map fcls fl) i.
Proof.
  induction fl as [|f t IH]; intro i; [reflexivity|]. cbn. unfold fcls.
  destruct (is_unconverged f); cbn; now rewrite IH.
Qed.

Lemma ifailed_perm : forall fl, is_perm (ifailed fl) (length fl).
Proof.
  intro fl. unfold ifailed, is_perm. rewrite failed_is, passed_is.
  rewrite <- (map_length fcls fl). apply where_is_perm2.
  apply Forall_forall. intros x Hx. apply in_map_iff in Hx. destruct Hx as (f & <- & _).
  unfold fcls. destruct (is_unconverged f); lia.
Qed.

Lemma failed_in : forall fl x, In x (failed_first fl 0) <->
  exists f, nth_error fl x = Some f /\ is_unconverged f = true.
Proof.
  intros fl x. rewrite failed_is, where_is_in, Nat.sub_0_r. rewrite nth_error_map. split.
  - intros [_ H]. destruct (nth_error fl x) as [f|]; [|discriminate]. exists f. split; auto.
    cbn in H. unfold fcls in H. destruct (is_unconverged f); [auto|discriminate].
  - intros (f & H1 & H2). split; [lia|]. rewrite H1. cbn. unfold fcls. now rewrite H2.
Qed.

(* ------------------------------------------------------------------ *)
(** merge *)
Section Merge.
Variables (rp ifl : list nat) (idx left failed : nat).
Hypothesis Hidx : idx <= left.
Hypothesis Hrp : left + length ifl <= length rp.
Hypothesis Hfail : failed <= length ifl.
Hypothesis Hifl : forall j f, nth_error ifl j = Some f -> f < length ifl.

(** the position, before the restart, of column [x] of the restarted basis *)
Definition origin (x : nat) : nat :=
  if x <? idx then nth x rp 0 else nth (left + nth (x - left) ifl 0) rp 0.

Hypothesis Hcand : forall i i', i < i' < idx -> origin i < origin i'.
Hypothesis Hfl : forall j j', j < j' < failed -> origin (left + j) < origin (left + j').
Hypothesis Hdis : forall i j, i < idx -> j < failed -> origin i <> origin (left + j).

Lemma splice : forall (h : list nat) k v M,
  k < length h ->
  firstn (S k) (upd h k v) ++ M ++ skipn (S k + length M) (upd h k v)
  = firstn k h ++ (v :: M) ++ skipn (k + length (v :: M)) h.
Proof.
  intros h k v M Hk.
  assert (L1 : length (firstn k h) = k) by (rewrite firstn_length; lia).
  assert (Hf : firstn (S k) (upd h k v) = firstn k h ++ [v]).
  { apply nth_error_ext_len.
    - rewrite firstn_length, length_upd, app_length, L1. cbn [length]. lia.
    - intros a Ha. rewrite firstn_length, length_upd in Ha.
      rewrite nth_error_firstn' by lia. destruct (Nat.eq_dec a k) as [->|N].
      + rewrite nth_error_upd_eq by lia. rewrite nth_error_app2, L1, Nat.sub_diag by lia. reflexivity.
      + rewrite nth_error_upd_neq by lia. rewrite nth_error_app1 by lia.
        rewrite nth_error_firstn' by lia. reflexivity. }
  rewrite Hf, <- app_assoc. cbn [app length]. f_equal.
  replace (skipn (S k + length M) (upd h k v)) with (skipn (k + S (length M)) h); [reflexivity|].
  apply nth_error_ext. intro a. rewrite !nth_error_skipn'. rewrite nth_error_upd_neq by lia.
  f_equal. lia.
Qed.
Lemma get_nth : forall (l : list nat) i, i < length l -> get l i = Some (nth i l 0).
Proof. intros. unfold get. now apply nth_error_nth'. Qed.

Lemma merge_ok : forall fuel i j k h,
  i <= idx -> j <= failed -> (idx - i) + (failed - j) < fuel ->
  k + (idx - i) + (failed - j) <= length h ->
  exists M, merge_perm rp ifl idx left failed fuel i j k h =
      Some (firstn k h ++ M ++ skipn (k + length M) h, k + length M) /\
    Permutation M (seq i (idx - i) ++ seq (left + j) (failed - j)) /\
    StronglySorted (fun x y => origin x < origin y) M.
Proof.
  induction fuel as [|fu IH]; intros i j k h Hi Hj Hf Hh; [lia|]. cbn [merge_perm].
  assert (Step : forall i' j' x,
     ((i' = S i /\ j' = j /\ x = i /\ i < idx) \/ (i' = i /\ j' = S j /\ x = left + j /\ j < failed)) ->
     (forall y, In y (seq i' (idx - i') ++ seq (left + j') (failed - j')) -> origin x < origin y) ->
     exists M, (h' <- put h k x; merge_perm rp ifl idx left failed fu i' j' (S k) h') =
      Some (firstn k h ++ M ++ skipn (k + length M) h, k + length M) /\
      Permutation M (seq i (idx - i) ++ seq (left + j) (failed - j)) /\
      StronglySorted (fun x y => origin x < origin y) M).
  { intros i' j' x HC HO. rewrite put_some by lia. cbn [bind].
    destruct (IH i' j' (S k) (upd h k x)) as (M & E & P & S1); try (rewrite ?length_upd; lia).
    exists (x :: M). rewrite E. split; [|split].
    - rewrite splice by lia. f_equal. f_equal. cbn [length]. lia.
    - destruct HC as [(-> & -> & -> & H1)|(-> & -> & -> & H1)].
      + replace (idx - i) with (S (idx - S i)) by lia. cbn [seq app]. now constructor.
      + replace (failed - j) with (S (failed - S j)) by lia. cbn [seq].
        rewrite <- Permutation_middle. constructor. now rewrite <- plus_n_Sm in P.
    - constructor; [exact S1|]. apply Forall_forall. intros y Hy. apply HO.
      eapply Permutation_in; eauto. }
  assert (OI : forall a, a < idx -> origin a = nth a rp 0).
  { intros a Ha. unfold origin. destruct (Nat.ltb_spec a idx); [reflexivity|lia]. }
  assert (OF : forall a, a < failed -> origin (left + a) = nth (left + nth a ifl 0) rp 0).
  { intros a Ha. unfold origin. destruct (Nat.ltb_spec (left + a) idx); [lia|].
    now replace (left + a - left) with a by lia. }
  assert (Mono : forall a b, i <= a -> a < b < idx -> origin a < origin b) by (intros; apply Hcand; lia).
  destruct (Nat.ltb_spec i idx) as [I|I]; cbn [orb].
  - destruct (Nat.leb_spec failed j) as [F|F].
    + cbn [bind]. apply Step; [left; repeat split; auto|].
      intros y Hy. apply in_app_or in Hy. destruct Hy as [Hy|Hy]; apply in_seq in Hy; [|lia].
      apply Mono; lia.
    + assert (Hfj : nth j ifl 0 < length ifl).
      { apply (Hifl j). apply nth_error_nth'. lia. }
      rewrite (get_nth rp i) by lia. cbn [bind]. rewrite (get_nth ifl j) by lia. cbn [bind].
      rewrite (get_nth rp (left + nth j ifl 0)) by lia. cbn [bind].
      rewrite <- (OI i I), <- (OF j F).
      destruct (Nat.ltb_spec (origin i) (origin (left + j))) as [C|C].
      * apply Step; [left; repeat split; auto|].
        intros y Hy. apply in_app_or in Hy. destruct Hy as [Hy|Hy]; apply in_seq in Hy.
        -- apply Mono; lia.
        -- replace y with (left + (y - left)) by lia. destruct (Nat.eq_dec (y - left) j) as [->|N]; [exact C|].
           etransitivity; [exact C|]. apply Hfl. lia.
      * apply Step; [right; repeat split; auto|].
        pose proof (Hdis i j I F) as D.
        intros y Hy. apply in_app_or in Hy. destruct Hy as [Hy|Hy]; apply in_seq in Hy.
        -- destruct (Nat.eq_dec y i) as [->|N]; [lia|].
           assert (origin i < origin y) by (apply Mono; lia). lia.
        -- replace y with (left + (y - left)) by lia. apply Hfl. lia.
  - destruct (Nat.ltb_spec j failed) as [F|F].
    + cbn [bind]. apply Step; [right; repeat split; auto|].
      intros y Hy. apply in_app_or in Hy. destruct Hy as [Hy|Hy]; apply in_seq in Hy; [lia|].
      replace y with (left + (y - left)) by lia. apply Hfl. lia.
    + exists []. replace (idx - i) with 0 by lia. replace (failed - j) with 0 by lia.
      cbn. rewrite Nat.add_0_r, firstn_skipn. repeat split; constructor.
Qed.

Lemma append_ok : forall npr i k h, k + npr <= length h ->
  append_prev idx npr i k h = Some (firstn k h ++ seq (i + idx) npr ++ skipn (k + npr) h).
Proof.
  induction npr as [|c IH]; intros i k h H; cbn [append_prev].
  - cbn. now rewrite Nat.add_0_r, firstn_skipn.
  - rewrite put_some by lia. cbn [bind]. rewrite IH by (rewrite length_upd; lia). f_equal.
    pose proof (splice h k (i + idx) (seq (S i + idx) c) ltac:(lia)) as E.
    cbn [length] in E. rewrite seq_length in E. exact E.
Qed.

Lemma lock_hVecsPerm_ok : forall npr h, left = idx + npr -> left + failed <= length h ->
  exists M, lock_hVecsPerm rp ifl idx npr failed h =
      Some (M ++ seq idx npr ++ skipn (left + failed) h) /\
    length M = idx + failed /\
    Permutation M (seq 0 idx ++ seq left failed) /\
    StronglySorted (fun x y => origin x < origin y) M /\
    is_perm (M ++ seq idx npr) (left + failed).
Proof.
  intros npr h HE HL. unfold lock_hVecsPerm. rewrite <- HE.
  destruct (merge_ok (S (idx + failed)) 0 0 0 h) as (M & E & P & S1); try lia.
  rewrite E. cbn [bind fst snd].
  rewrite !Nat.sub_0_r, !Nat.add_0_r in *. cbn [firstn app] in *. rewrite Nat.add_0_l in *.
  assert (LM : length M = idx + failed).
  { rewrite (Permutation_length P), app_length, !seq_length. reflexivity. }
  rewrite append_ok by (rewrite app_length, skipn_length; lia).
  exists M. split; [|split; [exact LM|split; [exact P|split; [exact S1|]]]].
  - f_equal. rewrite firstn_app, Nat.sub_diag. cbn [firstn]. rewrite app_nil_r, firstn_all.
    rewrite Nat.add_0_l. do 2 f_equal. apply nth_error_ext. intro q.
    rewrite !nth_error_skipn', nth_error_app2 by lia. rewrite nth_error_skipn'. f_equal. lia.
  - unfold is_perm. rewrite P. rewrite HE, <- app_assoc.
    rewrite (Permutation_app_comm (seq (idx + npr) failed)). 
    rewrite seq_app, Nat.add_0_l. rewrite (seq_app idx npr), Nat.add_0_l, <- app_assoc. reflexivity.
Qed.
End Merge.
