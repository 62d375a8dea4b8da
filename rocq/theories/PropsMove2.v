(** C57: the merge of the failed pairs into the block, with norms and values. *)
From Coq Require Import List Arith Bool Lia.
From Verif Require Import Base Values ProjModel MatAlg RestartModel ScatterProofs RestartProofs RestartProofs2 VwxrModel MoveModel SpecMove PropsMove.
Import ListNotations.

Lemma firstn_nth {A} (l : list A) n i : i < n -> nth_error (firstn n l) i = nth_error l i.
Proof.
  revert n i. induction l as [|x t IH]; intros [|n] [|i] H; cbn [firstn nth_error]; auto; try lia. apply IH. lia.
Qed.
Lemma nth_error_ext' {A} (l l' : list A) : (forall q, nth_error l q = nth_error l' q) -> l = l'.
Proof.
  revert l'. induction l as [|x t IH]; intros [|y t'] H; auto; try (specialize (H 0); discriminate).
  pose proof (H 0) as H0. injection H0 as ->. f_equal. apply IH. intros q. apply (H (S q)).
Qed.

(** The column a pair had before the failed pairs were packed. *)
Definition came_from (left : nat) (ifl : list nat) (e : nat) : nat :=
  if e <? left then e else left + nth (e - left) ifl 0.

Section Norms.
Context {R : Type}.
Variables (rp ifl : list nat) (idx left failed nd sb : nat) (b0 rn : list R) (N : nat -> R).
Hypothesis Hrp : forall j, j < failed -> left + nth j ifl 0 < length rp.
Hypothesis Hidx : idx <= left.
Hypothesis Hirp : idx <= length rp.
Hypothesis Hifl : failed <= length ifl.
Hypothesis Hnd : nd <= sb.
Hypothesis Hsb : sb <= idx.
Hypothesis Hb0 : forall i, i < sb -> nth_error b0 i = Some (N i).
Hypothesis Hrn : forall j, j < failed -> nth_error rn (nth j ifl 0) = Some (N (left + nth j ifl 0)).

Lemma merge_norms_ok : forall fuel i j k (h : list nat) (b : list R),
  k = i + j -> i <= idx -> j <= failed -> (idx - i) + (failed - j) < fuel ->
  idx + failed <= length h -> nd <= length b ->
  exists l h' b', merge_norms rp ifl idx left failed nd sb b0 rn fuel i j k h b = Some (h', b', idx + failed) /\
    merged left i j idx failed l /\ length h' = length h /\ length b' = length b /\
    (forall q, q < k \/ idx + failed <= q -> nth_error h' q = nth_error h q) /\
    (forall q e, nth_error l q = Some e -> nth_error h' (k + q) = Some e) /\
    (forall q, q < k \/ nd <= q -> nth_error b' q = nth_error b q) /\
    (forall q e, nth_error l q = Some e -> k + q < nd -> nth_error b' (k + q) = Some (N (came_from left ifl e))).
Proof.
  induction fuel as [|f IH]; intros i j k h b -> Hi Hj Hf Lh Lb; [lia|].
  cbn [merge_norms].
  destruct (Nat.ltb_spec i idx) as [A|A]; [|destruct (Nat.ltb_spec j failed) as [B|B]]; cbn [orb].
  - assert (T : exists t : bool, (if failed <=? j then Some true
               else a <- get rp i; fj <- get ifl j; c <- get rp (left + fj); Some (a <? c)) = Some t /\
               (t = false -> j < failed)).
    { destruct (Nat.leb_spec failed j) as [C|C]; [exists true; split; auto; discriminate|].
      destruct (get_some _ rp i ltac:(lia)) as [a ->]. cbn [bind].
      assert (Gj : get ifl j = Some (nth j ifl 0)) by (unfold get; apply nth_error_nth'; lia).
      rewrite Gj. cbn [bind]. destruct (get_some _ rp (left + nth j ifl 0) (Hrp j C)) as [c ->]. cbn [bind].
      eauto. }
    destruct T as (t & -> & Ht). cbn [bind]. destruct t.
    + assert (BB : exists b1, (if (i + j <? nd) && (i <? sb) then v <- get b0 i; put b (i + j) v else Some b) = Some b1 /\
                 length b1 = length b /\ (forall q, q <> i + j \/ nd <= q -> nth_error b1 q = nth_error b q) /\
                 (i + j < nd -> nth_error b1 (i + j) = Some (N i))).
      { destruct (Nat.ltb_spec (i + j) nd) as [C|C]; cbn [andb].
        - rewrite (proj2 (Nat.ltb_lt i sb)) by lia. unfold get at 1. rewrite Hb0 by lia. cbn [bind].
          rewrite put_some by lia. eexists. split; [reflexivity|]. rewrite length_upd. split; [auto|].
          split; [intros q Hq; apply nth_error_upd_neq; lia|intros _; apply nth_error_upd_eq; lia].
        - exists b. repeat split; auto. lia. }
      destruct BB as (b1 & -> & L1 & O1 & N1). cbn [bind]. rewrite put_some by lia. cbn [bind].
      destruct (IH (S i) j (S (i + j)) (upd h (i + j) i) b1) as (l & h' & b' & E & Me & Lh' & Lb' & H1 & H2 & H3 & H4);
        try lia; [rewrite length_upd; lia|].
      rewrite length_upd in Lh'.
      exists (i :: l), h', b'. split; [exact E|]. split; [constructor; auto|]. split; [lia|]. split; [lia|].
      split; [|split; [|split]].
      * intros q Hq. rewrite H1 by lia. apply nth_error_upd_neq. lia.
      * intros [|q] e He; cbn [nth_error] in He.
        -- injection He as <-. rewrite Nat.add_0_r, H1 by lia. apply nth_error_upd_eq. lia.
        -- rewrite <- (H2 q e He). f_equal. lia.
      * intros q Hq. rewrite H3 by lia. apply O1. lia.
      * intros [|q] e He Hq; cbn [nth_error] in He.
        -- injection He as <-. rewrite Nat.add_0_r in *. rewrite H3 by lia. unfold came_from.
           rewrite (proj2 (Nat.ltb_lt i left)) by lia. auto.
        -- rewrite <- (H4 q e He) by lia. f_equal. lia.
    + specialize (Ht eq_refl). 
      assert (BB : exists b1, (if i + j <? nd then fj <- get ifl j; v <- get rn fj; put b (i + j) v else Some b) = Some b1 /\
                 length b1 = length b /\ (forall q, q <> i + j \/ nd <= q -> nth_error b1 q = nth_error b q) /\
                 (i + j < nd -> nth_error b1 (i + j) = Some (N (left + nth j ifl 0)))).
      { destruct (Nat.ltb_spec (i + j) nd) as [C|C]; cbn [andb].
        - assert (Gj : get ifl j = Some (nth j ifl 0)) by (unfold get; apply nth_error_nth'; lia).
          rewrite Gj. cbn [bind]. unfold get at 1. rewrite Hrn by lia. cbn [bind].
          rewrite put_some by lia. eexists. split; [reflexivity|]. rewrite length_upd. split; [auto|].
          split; [intros q Hq; apply nth_error_upd_neq; lia|intros _; apply nth_error_upd_eq; lia].
        - exists b. repeat split; auto. lia. }
      destruct BB as (b1 & -> & L1 & O1 & N1). cbn [bind]. rewrite put_some by lia. cbn [bind].
      destruct (IH i (S j) (S (i + j)) (upd h (i + j) (left + j)) b1) as (l & h' & b' & E & Me & Lh' & Lb' & H1 & H2 & H3 & H4);
        try lia; [rewrite length_upd; lia|].
      rewrite length_upd in Lh'.
      exists (left + j :: l), h', b'. split; [exact E|]. split; [constructor; auto|]. split; [lia|]. split; [lia|].
      split; [|split; [|split]].
      * intros q Hq. rewrite H1 by lia. apply nth_error_upd_neq. lia.
      * intros [|q] e He; cbn [nth_error] in He.
        -- injection He as <-. rewrite Nat.add_0_r, H1 by lia. apply nth_error_upd_eq. lia.
        -- rewrite <- (H2 q e He). f_equal. lia.
      * intros q Hq. rewrite H3 by lia. apply O1. lia.
      * intros [|q] e He Hq; cbn [nth_error] in He.
        -- injection He as <-. rewrite Nat.add_0_r in *. rewrite H3 by lia. unfold came_from.
           rewrite (proj2 (Nat.ltb_ge (left + j) left)) by lia. replace (left + j - left) with j by lia. auto.
        -- rewrite <- (H4 q e He) by lia. f_equal. lia.
  - cbn [bind].
      assert (BB : exists b1, (if i + j <? nd then fj <- get ifl j; v <- get rn fj; put b (i + j) v else Some b) = Some b1 /\
                 length b1 = length b /\ (forall q, q <> i + j \/ nd <= q -> nth_error b1 q = nth_error b q) /\
                 (i + j < nd -> nth_error b1 (i + j) = Some (N (left + nth j ifl 0)))).
      { destruct (Nat.ltb_spec (i + j) nd) as [C|C]; cbn [andb].
        - assert (Gj : get ifl j = Some (nth j ifl 0)) by (unfold get; apply nth_error_nth'; lia).
          rewrite Gj. cbn [bind]. unfold get at 1. rewrite Hrn by lia. cbn [bind].
          rewrite put_some by lia. eexists. split; [reflexivity|]. rewrite length_upd. split; [auto|].
          split; [intros q Hq; apply nth_error_upd_neq; lia|intros _; apply nth_error_upd_eq; lia].
        - exists b. repeat split; auto. lia. }
      destruct BB as (b1 & -> & L1 & O1 & N1). cbn [bind]. rewrite put_some by lia. cbn [bind].
      destruct (IH i (S j) (S (i + j)) (upd h (i + j) (left + j)) b1) as (l & h' & b' & E & Me & Lh' & Lb' & H1 & H2 & H3 & H4);
        try lia; [rewrite length_upd; lia|].
      rewrite length_upd in Lh'.
      exists (left + j :: l), h', b'. split; [exact E|]. split; [constructor; auto|]. split; [lia|]. split; [lia|].
      split; [|split; [|split]].
      * intros q Hq. rewrite H1 by lia. apply nth_error_upd_neq. lia.
      * intros [|q] e He; cbn [nth_error] in He.
        -- injection He as <-. rewrite Nat.add_0_r, H1 by lia. apply nth_error_upd_eq. lia.
        -- rewrite <- (H2 q e He). f_equal. lia.
      * intros q Hq. rewrite H3 by lia. apply O1. lia.
      * intros [|q] e He Hq; cbn [nth_error] in He.
        -- injection He as <-. rewrite Nat.add_0_r in *. rewrite H3 by lia. unfold came_from.
           rewrite (proj2 (Nat.ltb_ge (left + j) left)) by lia. replace (left + j - left) with j by lia. auto.
        -- rewrite <- (H4 q e He) by lia. f_equal. lia.
  - exists [], h, b. replace (i + j) with (idx + failed) by lia.
    assert (i = idx) by lia. assert (j = failed) by lia. subst i j.
    split; [reflexivity|]. split; [constructor|]. repeat split; auto; intros q e He; destruct q; discriminate.
Qed.
End Norms.

Lemma append_prev_ok : forall idx npr i k (h : list nat), k + npr <= length h ->
  exists h', append_prev idx npr i k h = Some h' /\ length h' = length h /\
    (forall q, q < k \/ k + npr <= q -> nth_error h' q = nth_error h q) /\
    (forall q, q < npr -> nth_error h' (k + q) = Some (idx + i + q)).
Proof.
  induction npr as [|c IH]; intros i k h L; cbn [append_prev].
  - exists h. repeat split; auto. lia.
  - rewrite put_some by lia. cbn [bind].
    destruct (IH (S i) (S k) (upd h k (i + idx))) as (h' & E & Lh & H1 & H2); [rewrite length_upd; lia|].
    rewrite length_upd in Lh. exists h'. split; [exact E|]. split; [lia|]. split.
    + intros q Hq. rewrite H1 by lia. apply nth_error_upd_neq. lia.
    + intros [|q] Hq.
      * rewrite Nat.add_0_r, H1 by lia. rewrite nth_error_upd_eq by lia. f_equal. lia.
      * replace (k + S q) with (S k + q) by lia. rewrite H2 by lia. f_equal. lia.
Qed.

Lemma move_vals_ok {K} (ifl : list nat) (left : nat) (v : nat -> K) (failed : nat) :
  failed <= length ifl -> (forall j, j < failed -> j <= nth j ifl 0) ->
  exists v', move_vals 0 failed ifl left v = Some v' /\
    (forall j, j < failed -> v' (left + j) = v (left + nth j ifl 0)) /\
    (forall c, c < left \/ left + failed <= c -> v' c = v c).
Proof.
  intros Hl Hge.
  assert (G : forall n i (w : nat -> K), i + n = failed ->
    (forall j, j < i -> w (left + j) = v (left + nth j ifl 0)) ->
    (forall c, c < left \/ left + i <= c -> w c = v c) ->
    exists v', move_vals i n ifl left w = Some v' /\
      (forall j, j < failed -> v' (left + j) = v (left + nth j ifl 0)) /\
      (forall c, c < left \/ left + failed <= c -> v' c = v c)).
  { induction n as [|n IH]; intros i w E H1 H2; cbn [move_vals].
    - exists w. replace failed with i by lia. auto.
    - assert (Gi : get ifl i = Some (nth i ifl 0)) by (unfold get; apply nth_error_nth'; lia).
      rewrite Gi. cbn [bind]. apply IH; try lia.
      + intros j Hj. destruct (Nat.eqb_spec (left + j) (left + i)) as [Q|Q].
        * replace j with i by lia. apply H2. pose proof (Hge i ltac:(lia)). lia.
        * apply H1. lia.
      + intros c Hc. destruct (Nat.eqb_spec c (left + i)); [lia|]. apply H2. lia. }
  apply (G failed 0 v); auto; intros; lia.
Qed.

(** The list of the failed pairs. *)
Lemma ifailed_facts fl : let failed := length (failed_first fl 0) in
  failed <= length (ifailed fl) /\ length (ifailed fl) = length fl /\
  (forall j, j < length fl -> nth j (ifailed fl) 0 < length fl) /\
  (forall j j', j < j' < failed -> nth j (ifailed fl) 0 < nth j' (ifailed fl) 0) /\
  (forall j, j < failed -> j <= nth j (ifailed fl) 0).
Proof.
  intro failed.
  assert (Ff : failed <= length (ifailed fl)) by (unfold failed, ifailed; rewrite app_length; lia).
  assert (Ll : length (ifailed fl) = length fl) by apply is_perm_length, ifailed_perm.
  assert (Bn : forall j, j < length fl -> nth j (ifailed fl) 0 < length fl).
  { intros j Hj. apply (is_perm_in _ _ _ (ifailed_perm fl)). apply nth_In. lia. }
  assert (Fs : forall j j', j < j' < failed -> nth j (ifailed fl) 0 < nth j' (ifailed fl) 0).
  { intros j j' Hj. unfold ifailed. rewrite !app_nth1 by (fold failed; lia).
    apply (sorted_nth_lt (failed_first fl 0)) with (a := j) (b := j'); [rewrite failed_is; apply where_is_sorted|lia| |];
      apply nth_error_nth'; fold failed; lia. }
  repeat split; auto.
  induction j as [|j IH]; intros Hj; [lia|]. specialize (IH ltac:(lia)). specialize (Fs j (S j) ltac:(lia)). lia.
Qed.

(** The sizes of the block before and after the merge. *)
Lemma sizes idx mB nE nc mbs npr packed nlk :
  let bmax := block_max idx mB nE nc in
  let sb := block_room bmax mbs idx npr nc nlk in
  let nd := block_room bmax mbs (idx + npr + packed) npr nc nlk in
  nd <= sb /\ sb <= idx.
Proof. unfold block_max, block_room. lia. Qed.

(** The block after a restart with locking.  Before, the first [sb] candidates
    stand after the basis with their residuals (C56_restart) and [N e] is the
    residual norm of the pair at column [e]; [fl] says which of the [length fl]
    pairs to be locked passed.  Afterwards the pairs that failed follow the
    restarted ones and the block holds, at every position [k], the vector, the
    residual and the norm of the pair that hVecsPerm puts at position [k]. *)
Theorem C57_block : forall {K R} (o : scal K) pbs hasB idx npr fl mB nE nc mbs nlk
    (rp h : list nat) (b rn : list R) (N : nat -> R) (vals : nat -> K) m (mem : nat -> nat -> nat -> K),
  0 < pbs ->
  let packed := length fl in
  let left := idx + npr in
  let rs := left + packed in
  let ifl := ifailed fl in
  let failed := length (failed_first fl 0) in
  let bmax := block_max idx mB nE nc in
  let sb := block_room bmax mbs idx npr nc nlk in
  let nd := block_room bmax mbs rs npr nc nlk in
  rs <= length rp -> left + failed <= length h -> sb <= length b ->
  (forall i, i < sb -> block_is o hasB m vals mem (rs + i) i) ->
  (forall i, i < sb -> nth_error b i = Some (N i)) ->
  (forall j, j < packed -> nth_error rn j = Some (N (left + j))) ->
  exists h' b' mem' vals',
    merge_block rp ifl idx npr failed nd sb rn h b = Some (h', b') /\
    compute_residual_columns o pbs (merge_args hasB left rs failed sb nd ifl h' vals) m mem = Some mem' /\
    move_vals 0 failed ifl left vals = Some vals' /\
    (forall e, e < left + failed ->
       same_pair hasB m mem' e mem (came_from left ifl e) /\ vals' e = vals (came_from left ifl e)) /\
    (forall k, k < nd -> exists e, nth_error h' k = Some e /\ (e < idx \/ left <= e < left + failed) /\
       block_is o hasB m vals' mem' (left + failed + k) e /\
       nth_error b' k = Some (N (came_from left ifl e))) /\
    (forall a c r, in_basis hasB a = false \/ m <= r \/ left + failed + nd <= c -> mem' a c r = mem a c r) /\
    (forall q, nd <= q -> nth_error b' q = nth_error b q) /\ (forall c, left + failed <= c -> vals' c = vals c).
Proof.
  intros K R o pbs hasB idx npr fl mB nE nc mbs nlk rp h b rn N vals m mem Hp packed left rs ifl failed bmax sb nd
    Lrp Lh Lb Pre Nb Nr.
  destruct (sizes idx mB nE nc mbs npr packed nlk) as [Hnd Hsb]. fold bmax sb left rs nd in Hnd, Hsb.
  destruct (ifailed_facts fl) as (F1 & F2 & F3 & F4 & F5). fold failed ifl packed in F1, F2, F3, F4, F5.
  assert (I1 : idx <= left) by (unfold left; lia).
  assert (I2 : idx <= length rp) by (unfold rs in Lrp; lia).
  assert (I3 : idx + failed <= length h) by lia.
  assert (I4 : nd <= length b) by lia.
  destruct (merge_norms_ok rp ifl idx left failed nd sb (firstn sb b) rn N) with (fuel := S (idx + failed)) (i := 0) (j := 0) (k := 0) (h := h) (b := b)
    as (l & h1 & b' & E1 & Me & Lh1 & Lb1 & H1 & H2 & H3 & H4); try lia.
  { intros j Hj. specialize (F3 j ltac:(lia)). unfold rs, left, packed in *. lia. }
  { intros i Hi. rewrite firstn_nth by lia. apply Nb; auto. }
  { intros j Hj. apply Nr. apply F3. lia. }
  destruct (append_prev_ok idx npr 0 (idx + failed) h1) as (h' & E2 & Lh' & A1 & A2); [unfold left in *; lia|].
  destruct (move_vals_ok ifl left vals failed) as (vals' & E3 & V1 & V2); auto.
  set (perm := firstn (idx + failed) h'). set (rest := skipn (idx + failed) h').
  assert (EH : h' = perm ++ rest) by (symmetry; apply firstn_skipn).
  assert (Ll : length l = idx + failed) by (pose proof (merged_le _ _ _ _ _ _ Me); lia).
  assert (EP : perm = l).
  { apply nth_error_ext'. intros q. unfold perm. destruct (Nat.lt_ge_cases q (idx + failed)) as [Q|Q].
    - rewrite firstn_nth by auto. rewrite A1 by lia.
      destruct (nth_error l q) as [e|] eqn:El; [apply (H2 q e El)|]. apply nth_error_None in El. lia.
    - rewrite (proj2 (nth_error_None _ _)) by (rewrite firstn_length; lia).
      symmetry. apply nth_error_None. lia. }
  rewrite <- EP in Me.
  destruct (compute_ok o pbs hasB left packed failed sb nd ifl perm rest idx vals) with (m := m) (mem := mem)
    as (mem' & E4 & M4); auto; try lia.
  { intros j Hj. apply F3. lia. }
  rewrite <- EH in E4. fold rs in E4.
  exists h', b', mem', vals'.
  assert (LE : forall e, e < left + failed -> same_pair hasB m mem' e mem (came_from left ifl e)).
  { intros e He a r Hr Ha. rewrite M4, (proj2 (Nat.ltb_lt r m)) by auto. unfold merged_mem, came_from. rewrite Ha.
    destruct (Nat.ltb_spec e left) as [Q|Q].
    - rewrite (proj2 (Nat.leb_gt left e)) by lia. cbn [andb]. rewrite (proj2 (Nat.leb_gt (left + failed) e)) by lia. reflexivity.
    - rewrite (proj2 (Nat.leb_le left e)), (proj2 (Nat.ltb_lt e (left + failed))) by lia. reflexivity. }
  assert (LV : forall e, e < left + failed -> vals' e = vals (came_from left ifl e)).
  { intros e He. unfold came_from. destruct (Nat.ltb_spec e left) as [Q|Q]; [apply V2; lia|].
    rewrite <- V1 by lia. f_equal. lia. }
  split; [unfold merge_block; fold left; rewrite E1; cbn [bind Datatypes.fst Datatypes.snd]; rewrite E2; reflexivity|].
  split; [exact E4|]. split; [exact E3|]. split; [auto|]. split; [|split; [|split]].
  - intros k Hk.
    assert (Hl : k < length l) by lia.
    destruct (nth_error l k) as [e|] eqn:El; [|apply nth_error_None in El; lia].
    assert (Re : e < idx \/ left <= e < left + failed).
    { rewrite EP in Me. clear - Me El. revert k El.
      assert (G : forall i j i' j' l, merged left i j i' j' l -> forall k e, nth_error l k = Some e -> e < i' \/ left <= e < left + j').
      { clear. induction 1; intros [|k] e He; cbn [nth_error] in He; try discriminate; eauto;
          injection He as <-; pose proof (merged_le _ _ _ _ _ _ H); lia. }
      intros k El. eapply G; eauto. }
    exists e. split; [rewrite A1 by lia; apply (H2 k e El)|]. split; [exact Re|]. split; [|apply (H4 k e El Hk)].
    assert (En : nth k perm 0 = e) by (rewrite EP; now apply nth_error_nth).
    assert (W : forall a r, r < m -> in_basis hasB a = true -> mem' a (left + failed + k) r = wanted o hasB left packed ifl perm vals mem a k r).
    { intros a r Hr Ha. rewrite M4, (proj2 (Nat.ltb_lt r m)) by auto. unfold merged_mem. rewrite Ha.
      rewrite (proj2 (Nat.ltb_ge (left + failed + k) (left + failed))) by lia. rewrite andb_false_r.
      rewrite (proj2 (Nat.leb_le (left + failed) (left + failed + k))), (proj2 (Nat.ltb_lt (left + failed + k) (left + failed + nd))) by lia.
      cbn [andb]. f_equal. lia. }
    assert (B0 : in_basis hasB 0 = true) by reflexivity. assert (B1 : in_basis hasB 1 = true) by reflexivity.
    assert (BM : in_basis hasB (mass hasB) = true) by (unfold mass; destruct hasB; reflexivity).
    intros r Hr. 
    assert (SE : forall a, in_basis hasB a = true -> mem' a e r = mem a (came_from left ifl e) r) by (intros; apply LE; auto; lia).
    assert (Hel : e < left -> e < sb).
    { intros Q. assert (e <= k); [|lia]. rewrite EP in Me. clear - Me El Q. revert k El.
      assert (G : forall i j i' j' l, merged left i j i' j' l -> forall k e, nth_error l k = Some e -> e < left -> e <= i + k).
      { clear. induction 1; intros [|k] e He Q; cbn [nth_error] in He; try discriminate;
          try (injection He as <-; lia); specialize (IHmerged k e He Q); lia. }
      intros k El. apply (G _ _ _ _ _ Me k e El Q). }
    unfold came_from in SE.
    split; [|split].
    + rewrite W, SE by auto. unfold wanted. rewrite En. cbn [Nat.eqb].
      destruct (Nat.ltb_spec e left) as [Q|Q]; [|reflexivity]. apply (Pre e (Hel Q) r Hr).
    + rewrite W, !SE by auto. unfold wanted. rewrite En. cbn [Nat.eqb].
      destruct (Nat.ltb_spec e left) as [Q|Q].
      * rewrite (LV e) by lia. unfold came_from. rewrite (proj2 (Nat.ltb_lt e left)) by auto. apply (Pre e (Hel Q) r Hr).
      * rewrite (LV e) by lia. unfold came_from. rewrite (proj2 (Nat.ltb_ge e left)) by auto. reflexivity.
    + intros HB. assert (B2 : in_basis hasB 2 = true) by (rewrite HB; reflexivity).
      rewrite W, SE by auto. unfold wanted. rewrite En. cbn [Nat.eqb].
      destruct (Nat.ltb_spec e left) as [Q|Q]; [|reflexivity]. apply (Pre e (Hel Q) r Hr); auto.
  - intros a c r H. rewrite M4. destruct (Nat.ltb_spec r m) as [Q|Q]; [|reflexivity].
    unfold merged_mem. destruct (in_basis hasB a) eqn:Ha; [|reflexivity].
    destruct H as [H|[H|H]]; [discriminate|lia|].
    rewrite (proj2 (Nat.ltb_ge c (left + failed))) by lia. rewrite andb_false_r.
    rewrite (proj2 (Nat.ltb_ge c (left + failed + nd))) by lia. rewrite andb_false_r. reflexivity.
  - intros q Hq. apply H3. auto.
  - intros c Hc. apply V2. auto.
Qed.
