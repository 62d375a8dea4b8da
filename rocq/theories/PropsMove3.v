(** C57: the matrices VtBV and H follow the vectors. *)
From Coq Require Import List Arith Bool Lia.
From Verif Require Import Base Values ProjModel MatAlg RestartModel ScatterProofs RestartProofs RestartProofs2
  VwxrModel MoveModel SpecMove PropsMove PropsMove2.
Import ListNotations.

Lemma copy_columns_out_ok {K} (xin : list nat) m c0 (x : @host K) : forall n i y,
  i + n <= length xin ->
  exists y', copy_columns_out i n xin m c0 x y = Some y' /\
    forall r c, y' r c = if (i <=? c) && (c <? i + n) && (r <? m) then x r (c0 + nth c xin 0) else y r c.
Proof.
  induction n as [|n IH]; intros i y H; cbn [copy_columns_out].
  - exists y. split; auto. intros r c.
    destruct (Nat.leb_spec i c), (Nat.ltb_spec c (i + 0)); cbn [andb]; auto; lia.
  - assert (G : get xin i = Some (nth i xin 0)) by (unfold get; apply nth_error_nth'; lia).
    rewrite G. cbn [bind].
    destruct (IH (S i) (fun r c => if (c =? i) && (r <? m) then x r (c0 + nth i xin 0) else y r c) ltac:(lia)) as (y' & E & P).
    exists y'. split; [exact E|]. intros r c. rewrite P.
    destruct (Nat.eqb_spec c i) as [->|N].
    + rewrite (proj2 (Nat.leb_gt (S i) i)), (proj2 (Nat.leb_le i i)), (proj2 (Nat.ltb_lt i (i + S n))) by lia. reflexivity.
    + cbn [andb]. destruct (Nat.leb_spec (S i) c), (Nat.leb_spec i c); try lia; cbn [andb]; auto.
      replace (S i + n) with (i + S n) by lia. reflexivity.
Qed.

Lemma copy_rows_out_ok {K} (xim : list nat) x0 n r0 c0 (x : @host K) : forall m i y,
  i + m <= length xim ->
  exists y', copy_rows_out i m xim x0 n r0 c0 x y = Some y' /\
    forall r c, y' r c = if (r0 + i <=? r) && (r <? r0 + i + m) && (c0 <=? c) && (c <? c0 + n)
                         then x (x0 + nth (r - r0) xim 0) (c - c0) else y r c.
Proof.
  induction m as [|m IH]; intros i y H; cbn [copy_rows_out].
  - exists y. split; auto. intros r c.
    destruct (Nat.leb_spec (r0 + i) r), (Nat.ltb_spec r (r0 + i + 0)); cbn [andb]; auto; lia.
  - assert (G : get xim i = Some (nth i xim 0)) by (unfold get; apply nth_error_nth'; lia).
    rewrite G. cbn [bind].
    destruct (IH (S i) (fun r c => if (r =? r0 + i) && (c0 <=? c) && (c <? c0 + n) then x (x0 + nth i xim 0) (c - c0) else y r c) ltac:(lia)) as (y' & E & P).
    exists y'. split; [exact E|]. intros r c. rewrite P.
    destruct (Nat.eqb_spec r (r0 + i)) as [->|N].
    + rewrite (proj2 (Nat.leb_gt (r0 + S i) (r0 + i))), (proj2 (Nat.leb_le (r0 + i) (r0 + i))), (proj2 (Nat.ltb_lt (r0 + i) (r0 + i + S m))) by lia.
      replace (r0 + i - r0) with i by lia. reflexivity.
    + cbn [andb]. destruct (Nat.leb_spec (r0 + S i) r), (Nat.leb_spec (r0 + i) r); try lia; cbn [andb]; auto.
      replace (r0 + S i + m) with (r0 + i + S m) by lia. reflexivity.
Qed.

Lemma copy_columns_in_ok {K} (xin : list nat) r0 m c0 n (x : @host K) :
  n <= length xin -> (forall j, j < n -> j <= nth j xin 0) ->
  exists x', copy_columns_in 0 n xin r0 m c0 x = Some x' /\
    forall r c, x' r c = if (c0 <=? c) && (c <? c0 + n) && (r0 <=? r) && (r <? r0 + m)
                         then x r (c0 + nth (c - c0) xin 0) else x r c.
Proof.
  intros Hl Hge.
  assert (G : forall k i (y : host), i + k = n ->
    (forall r c, y r c = if (c0 <=? c) && (c <? c0 + i) && (r0 <=? r) && (r <? r0 + m)
                         then x r (c0 + nth (c - c0) xin 0) else x r c) ->
    exists x', copy_columns_in i k xin r0 m c0 y = Some x' /\
      forall r c, x' r c = if (c0 <=? c) && (c <? c0 + n) && (r0 <=? r) && (r <? r0 + m)
                         then x r (c0 + nth (c - c0) xin 0) else x r c).
  { induction k as [|k IH]; intros i y E Hy; cbn [copy_columns_in].
    - exists y. split; auto. replace n with i by lia. exact Hy.
    - assert (Gi : get xin i = Some (nth i xin 0)) by (unfold get; apply nth_error_nth'; lia).
      rewrite Gi. cbn [bind]. apply IH; [lia|]. intros r c.
      assert (Y : y r (c0 + nth i xin 0) = x r (c0 + nth i xin 0)).
      { rewrite Hy. pose proof (Hge i ltac:(lia)). rewrite (proj2 (Nat.ltb_ge (c0 + nth i xin 0) (c0 + i))) by lia.
        rewrite andb_false_r. reflexivity. }
      rewrite Y. destruct (Nat.eqb_spec c (c0 + i)) as [->|N].
      + rewrite (proj2 (Nat.leb_le c0 (c0 + i))), (proj2 (Nat.ltb_lt (c0 + i) (c0 + S i))) by lia. cbn [andb].
        replace (c0 + i - c0) with i by lia. destruct ((r0 <=? r) && (r <? r0 + m)) eqn:Q; auto.
        rewrite Hy. rewrite (proj2 (Nat.ltb_ge (c0 + i) (c0 + i))) by lia. rewrite andb_false_r. reflexivity.
      + cbn [andb]. rewrite Hy. destruct (Nat.ltb_spec c (c0 + i)), (Nat.ltb_spec c (c0 + S i)); auto; lia. }
  apply (G n 0 x); auto. intros r c.
  destruct (Nat.leb_spec c0 c), (Nat.ltb_spec c (c0 + 0)); cbn [andb]; auto; lia.
Qed.

Lemma copy_rows_in_ok {K} (xim : list nat) r0 m c0 n (x : @host K) :
  m <= length xim -> (forall j, j < m -> j <= nth j xim 0) ->
  exists x', copy_rows_in 0 m xim r0 n c0 x = Some x' /\
    forall r c, x' r c = if (r0 <=? r) && (r <? r0 + m) && (c0 <=? c) && (c <? c0 + n)
                         then x (r0 + nth (r - r0) xim 0) c else x r c.
Proof.
  intros Hl Hge.
  assert (G : forall k i (y : host), i + k = m ->
    (forall r c, y r c = if (r0 <=? r) && (r <? r0 + i) && (c0 <=? c) && (c <? c0 + n)
                         then x (r0 + nth (r - r0) xim 0) c else x r c) ->
    exists x', copy_rows_in i k xim r0 n c0 y = Some x' /\
      forall r c, x' r c = if (r0 <=? r) && (r <? r0 + m) && (c0 <=? c) && (c <? c0 + n)
                         then x (r0 + nth (r - r0) xim 0) c else x r c).
  { induction k as [|k IH]; intros i y E Hy; cbn [copy_rows_in].
    - exists y. split; auto. replace m with i by lia. exact Hy.
    - assert (Gi : get xim i = Some (nth i xim 0)) by (unfold get; apply nth_error_nth'; lia).
      rewrite Gi. cbn [bind]. apply IH; [lia|]. intros r c.
      assert (Y : y (r0 + nth i xim 0) c = x (r0 + nth i xim 0) c).
      { rewrite Hy. pose proof (Hge i ltac:(lia)). rewrite (proj2 (Nat.ltb_ge (r0 + nth i xim 0) (r0 + i))) by lia.
        rewrite andb_false_r. reflexivity. }
      rewrite Y. destruct (Nat.eqb_spec r (r0 + i)) as [->|N].
      + rewrite (proj2 (Nat.leb_le r0 (r0 + i))), (proj2 (Nat.ltb_lt (r0 + i) (r0 + S i))) by lia. cbn [andb].
        replace (r0 + i - r0) with i by lia. destruct ((c0 <=? c) && (c <? c0 + n)) eqn:Q; auto.
        rewrite Hy. rewrite (proj2 (Nat.ltb_ge (r0 + i) (r0 + i))) by lia. rewrite andb_false_r. reflexivity.
      + cbn [andb]. rewrite Hy. destruct (Nat.ltb_spec r (r0 + i)), (Nat.ltb_spec r (r0 + S i)); auto; lia. }
  apply (G m 0 x); auto. intros r c.
  destruct (Nat.leb_spec r0 r), (Nat.ltb_spec r (r0 + 0)); cbn [andb]; auto; lia.
Qed.

(** The columns before, for the columns [locked; basis] after. *)
Definition joint_from (nl : nat) (iV : list nat) (i : nat) : nat :=
  if i <? nl then i else nl + nth (i - nl) iV 0.

Lemma move_VtBV_ok {K} (o : scal K) nl left failed packed ifl (G : @host K) :
  length (order left failed packed ifl) = left + packed ->
  (forall x, In x (order left failed packed ifl) -> x < left + packed) ->
  exists G', move_VtBV o nl left failed packed ifl G = Some G' /\
    (forall i j, i < nl + (left + packed) -> nl <= j < nl + (left + packed) ->
       G' i j = G (joint_from nl (order left failed packed ifl) i) (joint_from nl (order left failed packed ifl) j)) /\
    (forall i j, j < nl \/ nl + (left + packed) <= j \/ nl + (left + packed) <= i -> G' i j = G i j).
Proof.
  intros Hl Hb. unfold move_VtBV. cbv zeta. set (iV := order left failed packed ifl) in *. set (n := left + packed) in *.
  destruct (copy_columns_out_ok iV (nl + n) nl G n 0 (fun _ _ => k0 o) ltac:(lia)) as (w & -> & Pw). cbn [bind].
  destruct (copy_rows_out_ok iV nl n nl nl w n 0
    (fun r c => if (r <? nl) && (nl <=? c) && (c <? nl + n) then w r (c - nl) else G r c) ltac:(lia)) as (G' & E & P).
  exists G'. split; [exact E|]. clear E. rewrite Nat.add_0_r in P.
  assert (Hw : forall r c, c < n -> r < nl + n -> w r c = G r (nl + nth c iV 0)).
  { intros r c Hc Hr. rewrite Pw. rewrite (proj2 (Nat.leb_le 0 c)), (proj2 (Nat.ltb_lt c (0 + n))), (proj2 (Nat.ltb_lt r (nl + n))) by lia.
    reflexivity. }
  split.
  - intros i j Hi Hj. rewrite P. unfold joint_from. rewrite (proj2 (Nat.ltb_ge j nl)) by lia.
    rewrite (proj2 (Nat.leb_le nl j)), (proj2 (Nat.ltb_lt j (nl + n))) by lia.
    destruct (Nat.ltb_spec i nl) as [Q|Q].
    + rewrite (proj2 (Nat.leb_gt nl i)) by lia. cbn [andb]. apply Hw; lia.
    + rewrite (proj2 (Nat.leb_le nl i)), (proj2 (Nat.ltb_lt i (nl + n))) by lia. cbn [andb].
      rewrite Hw; [reflexivity|lia|].
      assert (IN : In (nth (i - nl) iV 0) iV) by (apply nth_In; lia). apply Hb in IN. fold n in IN. lia.
  - intros i j H. rewrite P. 
    destruct (Nat.leb_spec nl i), (Nat.ltb_spec i (nl + n)), (Nat.leb_spec nl j), (Nat.ltb_spec j (nl + n)), (Nat.ltb_spec i nl); cbn [andb]; auto; lia.
Qed.

Lemma order_facts fl left : let ifl := ifailed fl in let failed := length (failed_first fl 0) in
  let packed := length fl in let iV := order left failed packed ifl in
  length iV = left + packed /\ (forall x, In x iV -> x < left + packed) /\
  (forall i, i < packed - failed -> nth i iV 0 = left + nth (failed + i) ifl 0) /\
  (forall i, i < left -> nth (packed - failed + i) iV 0 = i) /\
  (forall i, i < failed -> nth (packed - failed + left + i) iV 0 = left + nth i ifl 0).
Proof.
  intros ifl failed packed iV.
  destruct (ifailed_facts fl) as (F1 & F2 & F3 & F4 & F5). fold failed ifl packed in F1, F2, F3, F4, F5.
  assert (LA : length (map (fun f => f + left) (firstn (packed - failed) (skipn failed ifl))) = packed - failed).
  { rewrite map_length, firstn_length, skipn_length. lia. }
  assert (LC : length (map (fun f => f + left) (firstn failed ifl)) = failed) by (rewrite map_length, firstn_length; lia).
  assert (IB : forall x, In x ifl -> x < packed).
  { intros x Hx. destruct (In_nth _ _ 0 Hx) as (j & Hj & <-). apply F3. lia. }
  assert (NA : forall l i, i < length l -> nth i (map (fun f => f + left) l) 0 = left + nth i l 0).
  { induction l as [|x t IH]; intros [|i] Hi; cbn [length map nth] in *; try lia. apply IH. lia. }
  split; [|split; [|split; [|split]]].
  - unfold iV, order. rewrite !app_length, LA, LC, seq_length. lia.
  - intros x Hx. unfold iV, order in Hx. apply in_app_or in Hx. destruct Hx as [Hx|Hx]; [|apply in_app_or in Hx; destruct Hx as [Hx|Hx]].
    + apply in_map_iff in Hx. destruct Hx as (f & <- & Hf).
      assert (Q : In f ifl).
      { rewrite <- (firstn_skipn failed ifl). apply in_or_app. right.
        rewrite <- (firstn_skipn (packed - failed) (skipn failed ifl)). apply in_or_app. auto. }
      apply IB in Q. lia.
    + apply in_seq in Hx. lia.
    + apply in_map_iff in Hx. destruct Hx as (f & <- & Hf).
      assert (Q : In f ifl) by (rewrite <- (firstn_skipn failed ifl); apply in_or_app; auto).
      apply IB in Q. lia.
  - intros i Hi. unfold iV, order. rewrite app_nth1 by lia. rewrite NA by (rewrite firstn_length, skipn_length; lia).
    f_equal. rewrite <- (firstn_skipn failed ifl) at 2. rewrite app_nth2 by (rewrite firstn_length; lia).
    rewrite firstn_length. replace (failed + i - Nat.min failed (length ifl)) with i by lia.
    rewrite <- (firstn_skipn (packed - failed) (skipn failed ifl)) at 2.
    rewrite app_nth1 by (rewrite firstn_length, skipn_length; lia). reflexivity.
  - intros i Hi. unfold iV, order. rewrite app_nth2 by lia. rewrite LA.
    rewrite app_nth1 by (rewrite seq_length; lia). rewrite seq_nth by lia. lia.
  - intros i Hi. unfold iV, order. rewrite app_nth2 by lia. rewrite LA.
    rewrite app_nth2 by (rewrite seq_length; lia). rewrite seq_length.
    replace (packed - failed + left + i - (packed - failed) - left) with i by lia.
    rewrite NA by (rewrite firstn_length; lia). f_equal.
    rewrite <- (firstn_skipn failed ifl) at 2. rewrite app_nth1 by (rewrite firstn_length; lia). reflexivity.
Qed.

(** The vectors that passed, packed. *)
Lemma pack_evecs_ok {K} hasBe nl room m : forall fl j q (mem : @memory K),
  q <= j -> q + length (passed_next fl j) <= room ->
  exists mem', pack_evecs fl hasBe nl room m j q mem = (mem', q + length (passed_next fl j)) /\
    (forall i r, i < length (passed_next fl j) -> r < m ->
       mem' 3 (nl + q + i) r = mem 3 (nl + nth i (passed_next fl j) 0) r /\
       (hasBe = true -> mem' 4 (nl + q + i) r = mem 4 (nl + nth i (passed_next fl j) 0) r)) /\
    (forall a c r, a <> 3 /\ (a <> 4 \/ hasBe = false) \/ c < nl + q \/ nl + q + length (passed_next fl j) <= c \/ m <= r ->
       mem' a c r = mem a c r).
Proof.
  induction fl as [|f t IH]; intros j q mem Hq Hr; cbn [pack_evecs passed_next].
  - exists mem. cbn [length]. rewrite Nat.add_0_r. split; auto. split; auto. intros; lia.
  - cbn [passed_next] in Hr. destruct (is_unconverged f) eqn:U; cbn [negb andb].
    + apply IH; auto.
    + cbn [length] in Hr. rewrite (proj2 (Nat.ltb_lt q room)) by lia.
      set (m2 := if hasBe then _ else _).
      assert (M2 : forall a c r, m2 a c r =
        if ((a =? 3) || (hasBe && (a =? 4))) && (c =? nl + q) && (r <? m) then mem a (nl + j) r else mem a c r).
      { intros a c r. unfold m2, cpn, in_cols, in_rows. cbn [Datatypes.fst Datatypes.snd].
        assert (CE : forall c, (nl + q <=? c) && (c <? nl + q + 1) = (c =? nl + q)).
        { intros c0. destruct (Nat.leb_spec (nl + q) c0), (Nat.ltb_spec c0 (nl + q + 1)), (Nat.eqb_spec c0 (nl + q)); cbn [andb]; auto; lia. }
        destruct hasBe; cbn [Datatypes.fst Datatypes.snd Nat.leb Nat.add andb].
        - destruct (Nat.eqb_spec c (nl + q)) as [->|N].
          + rewrite !(proj2 (Nat.leb_le (nl + q) (nl + q))), !(proj2 (Nat.ltb_lt (nl + q) (nl + q + 1))) by lia.
            rewrite !Nat.sub_diag, !Nat.add_0_r.
            destruct (Nat.eqb_spec a 3) as [->|]; [|destruct (Nat.eqb_spec a 4) as [->|]]; cbn [andb orb Nat.eqb];
              destruct (r <? m); cbn [andb]; reflexivity.
          + rewrite <- !(andb_assoc (a =? _)), !CE, (proj2 (Nat.eqb_neq _ _) N), ?andb_false_r. cbn [andb].
            rewrite ?andb_false_r. reflexivity.
        - destruct (Nat.eqb_spec c (nl + q)) as [->|N].
          + rewrite !(proj2 (Nat.leb_le (nl + q) (nl + q))), !(proj2 (Nat.ltb_lt (nl + q) (nl + q + 1))) by lia.
            rewrite !Nat.sub_diag, !Nat.add_0_r.
            destruct (Nat.eqb_spec a 3) as [->|]; cbn [andb orb Nat.eqb]; destruct (r <? m); cbn [andb]; reflexivity.
          + rewrite <- !(andb_assoc (a =? _)), !CE, (proj2 (Nat.eqb_neq _ _) N), ?andb_false_r. cbn [andb].
            rewrite ?andb_false_r. reflexivity. }
      destruct (IH (S j) (S q) m2) as (mem' & E & P1 & P2); [lia|lia|].
      exists mem'. cbn [length]. split; [rewrite E; f_equal; lia|]. clearbody m2. clear E IH.
      assert (GT : forall x, In x (passed_next t (S j)) -> S j <= x).
      { intros x. rewrite passed_is. clear. generalize (map fcls t) (S j). intros l. induction l as [|y l IH]; intros n Hx; cbn in Hx; [destruct Hx|].
        destruct (y =? 1); [destruct Hx as [->|Hx]; [lia|]|]; specialize (IH _ Hx); lia. }
      split.
      * intros [|i] r Hi Hm; cbn [nth].
        -- rewrite Nat.add_0_r. split; [|intros HB]; rewrite P2 by lia; rewrite M2;
             rewrite (Nat.eqb_refl (nl + q)), (proj2 (Nat.ltb_lt r m)) by auto; cbn [Nat.eqb orb andb]; [reflexivity|rewrite HB; reflexivity].
        -- destruct (P1 i r ltac:(lia) Hm) as [Q1 Q2].
           assert (IN : S j <= nth i (passed_next t (S j)) 0) by (apply GT, nth_In; lia).
           replace (nl + q + S i) with (nl + S q + i) by lia. split.
           ++ rewrite Q1, M2. rewrite (proj2 (Nat.eqb_neq (nl + nth i (passed_next t (S j)) 0) (nl + q))) by lia.
              rewrite andb_false_r. reflexivity.
           ++ intros HB. rewrite Q2 by auto. rewrite M2. rewrite (proj2 (Nat.eqb_neq (nl + nth i (passed_next t (S j)) 0) (nl + q))) by lia.
              rewrite andb_false_r. reflexivity.
      * intros a c r H. rewrite P2 by (intuition lia). rewrite M2.
        destruct H as [[A1 A2]|[H|[H|H]]].
        -- rewrite (proj2 (Nat.eqb_neq a 3)) by auto. cbn [orb]. destruct A2 as [A2|A2].
           ++ rewrite (proj2 (Nat.eqb_neq a 4)) by auto. rewrite andb_false_r. reflexivity.
           ++ rewrite A2. reflexivity.
        -- rewrite (proj2 (Nat.eqb_neq c (nl + q))) by lia. rewrite andb_false_r. reflexivity.
        -- rewrite (proj2 (Nat.eqb_neq c (nl + q))) by lia. rewrite andb_false_r. reflexivity.
        -- rewrite (proj2 (Nat.ltb_ge r m)) by lia. rewrite andb_false_r. reflexivity.
Qed.

Lemma settle_room : forall fl room j, length (passed_next (settle room fl) j) <= room.
Proof.
  induction fl as [|f t IH]; intros room j; cbn [settle passed_next]; [cbn; lia|].
  destruct (is_unconverged f) eqn:U; cbn [negb andb].
  - cbn [passed_next is_unconverged]. apply IH.
  - destruct (Nat.ltb_spec 0 room).
    + cbn [passed_next]. rewrite U. cbn [length]. specialize (IH (room - 1) (S j)). lia.
    + cbn [passed_next is_unconverged]. apply IH.
Qed.
Lemma settle_length : forall fl room, length (settle room fl) = length fl.
Proof. induction fl as [|f t IH]; intros; cbn [settle length]; auto. destruct (negb (is_unconverged f) && (0 <? room)); cbn [length]; auto. Qed.
Lemma settle_marks : forall fl room i, nth_error (settle room fl) i = nth_error fl i \/ nth_error (settle room fl) i = Some UNCONVERGED.
Proof.
  induction fl as [|f t IH]; intros room [|i]; cbn [settle nth_error]; auto;
    destruct (negb (is_unconverged f) && (0 <? room)); cbn [nth_error]; auto.
Qed.
