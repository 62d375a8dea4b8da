(** Proofs about RestartModel.v. *)
From Verif Require Import Base Values SelectModel RestartModel ScatterProofs.
From Coq Require Import List Arith ZArith Lia Bool Permutation Sorted.
Import ListNotations.

Lemma window_step : forall A (l : list A) i c f, get l i = Some f ->
  firstn (S c) (skipn i l) = f :: firstn c (skipn (S i) l).
Proof.
  unfold get. induction l as [|a l IH]; intros i c f H; [destruct i; discriminate|].
  destruct i as [|i]; [injection H as ->; reflexivity|]. cbn [skipn]. now apply IH.
Qed.

Definition flagged (f : flag) : bool := negb (is_unconverged f).
Definition nflag (l : list flag) : nat := length (filter flagged l).

Lemma nflag_app : forall a b, nflag (a ++ b) = nflag a + nflag b.
Proof. intros. unfold nflag. now rewrite filter_app, app_length. Qed.

Lemma nflag_cons : forall f l, nflag (f :: l) = (if is_unconverged f then 0 else 1) + nflag l.
Proof. intros f l. unfold nflag, flagged. cbn. destruct (is_unconverged f); reflexivity. Qed.

Lemma nflag_le : forall l, nflag l <= length l.
Proof. induction l as [|f l IH]; [cbn; lia|]. rewrite nflag_cons. cbn. destruct (is_unconverged f); lia. Qed.

Lemma nflag_zero : forall l, (forall f, In f l -> f = UNCONVERGED) -> nflag l = 0.
Proof.
  induction l as [|f l IH]; intro H; [reflexivity|]. rewrite nflag_cons, IH by (intros; apply H; now right).
  rewrite (H f (or_introl eq_refl)). reflexivity.
Qed.

(* ------------------------------------------------------------------ *)
(** soft locking *)
Fixpoint soft_cls (fl : list flag) (nc k : nat) : list nat :=
  match fl with
  | [] => []
  | f :: t => if (nc <=? k) || is_unconverged f then 1 :: soft_cls t nc k
              else 0 :: soft_cls t nc (S k)
  end.

Lemma soft_cls_len : forall fl nc k, length (soft_cls fl nc k) = length fl.
Proof. induction fl as [|f t IH]; intros; cbn; auto. destruct ((nc <=? k) || _); cbn; now rewrite IH. Qed.

Lemma soft_cls_lt : forall fl nc k, Forall (fun c => c < 2) (soft_cls fl nc k).
Proof. induction fl as [|f t IH]; intros; cbn; auto. destruct ((nc <=? k) || _); constructor; auto; lia. Qed.

Lemma soft_perm_scatter : forall cnt flags i nc j k b rp,
  i + cnt <= length flags -> b 0 = k -> b 1 = nc + j ->
  soft_perm flags nc cnt i j k rp = scatter (soft_cls (firstn cnt (skipn i flags)) nc k) i b rp.
Proof.
  induction cnt as [|c IH]; intros flags i nc j k b rp HL B0 B1; [reflexivity|].
  cbn [soft_perm]. destruct (get_some _ flags i) as [f Hf]; [lia|]. rewrite Hf. cbn [bind].
  rewrite (window_step _ _ _ _ _ Hf). cbn [soft_cls].
  destruct ((nc <=? k) || is_unconverged f) eqn:E; cbn [scatter].
  - rewrite B1. destruct (put rp (nc + j) i) as [rp'|]; [|reflexivity]. cbn [bind].
    apply IH; [lia| |]; unfold bump; cbn; lia.
  - rewrite B0. destruct (put rp k i) as [rp'|]; [|reflexivity]. cbn [bind].
    apply IH; [lia| |]; unfold bump; cbn; lia.
Qed.

Lemma soft_front_len : forall fl nc k i, k <= nc ->
  length (where_is 0 (soft_cls fl nc k) i) = Nat.min (nc - k) (nflag fl).
Proof.
  induction fl as [|f t IH]; intros nc k i Hk; [cbn; lia|].
  rewrite nflag_cons. cbn [soft_cls].
  destruct (Nat.leb_spec nc k) as [H|H]; cbn [orb].
  - cbn [where_is Nat.eqb]. rewrite IH by lia. lia.
  - destruct (is_unconverged f); cbn [where_is Nat.eqb length].
    + rewrite IH by lia. lia.
    + rewrite IH by lia. lia.
Qed.

Lemma soft_cls_app : forall a b nc k, k <= nc ->
  soft_cls (a ++ b) nc k = soft_cls a nc k ++ soft_cls b nc (Nat.min nc (k + nflag a)).
Proof.
  induction a as [|f t IH]; intros b nc k Hk.
  - cbn [app soft_cls]. rewrite nflag_zero by (intros f []). f_equal. lia.
  - rewrite nflag_cons. cbn [app soft_cls].
    destruct (Nat.leb_spec nc k) as [H|H]; cbn [orb app].
    + rewrite IH by lia. do 3 f_equal. lia.
    + destruct (is_unconverged f); cbn [app]; rewrite IH by lia; do 3 f_equal; lia.
Qed.

Lemma soft_cls_full : forall b nc, soft_cls b nc nc = repeat 1 (length b).
Proof.
  induction b as [|f t IH]; intro nc; [reflexivity|]. cbn [soft_cls].
  rewrite Nat.leb_refl. cbn. now rewrite IH.
Qed.

Lemma where_is_app : forall c a b i,
  where_is c (a ++ b) i = where_is c a i ++ where_is c b (i + length a).
Proof.
  induction a as [|x t IH]; intros b i; cbn [app where_is length].
  - now rewrite Nat.add_0_r.
  - rewrite IH. replace (S i + length t) with (i + S (length t)) by lia. destruct (x =? c); reflexivity.
Qed.

Lemma where_is_repeat : forall c n i, where_is c (repeat c n) i = seq i n.
Proof. induction n as [|n IH]; intro i; [reflexivity|]. cbn. rewrite Nat.eqb_refl, IH. reflexivity. Qed.

Lemma where_is_repeat_neq : forall c d n i, d <> c -> where_is c (repeat d n) i = [].
Proof.
  induction n as [|n IH]; intros i H; [reflexivity|]. cbn.
  destruct (Nat.eqb_spec d c); [congruence|]. auto.
Qed.

Lemma soft_cls_front : forall flags m nc k x,
  nth_error (soft_cls (firstn m flags) nc k) x = Some 0 ->
  exists f, nth_error flags x = Some f /\ flagged f = true.
Proof.
  induction flags as [|f t IH]; intros m nc k x Hx.
  - rewrite firstn_nil in Hx. destruct x; discriminate.
  - destruct m as [|m]; [destruct x; discriminate|]. cbn [firstn soft_cls] in Hx.
    destruct ((nc <=? k) || is_unconverged f) eqn:E.
    + destruct x as [|x]; [discriminate|]. cbn in Hx |- *. eapply IH; eauto.
    + destruct x as [|x].
      * exists f. split; [reflexivity|]. unfold flagged.
        apply orb_false_iff in E. now destruct E as [_ ->].
      * cbn in Hx |- *. eapply IH; eauto.
Qed.

(** What soft_count leaves behind. *)
Lemma soft_count_spec : forall moved cnt flags i nc,
  i + cnt <= length flags ->
  exists flags' nc', soft_count flags moved cnt i nc = Some (flags', nc') /\
    length flags' = length flags /\
    nc' = nc + nflag (firstn cnt (skipn i flags')) /\
    (forall p, p < i \/ i + cnt <= p -> nth_error flags' p = nth_error flags p) /\
    (forall p f, i <= p < i + cnt -> nth_error flags p = Some f ->
       nth_error flags' p = Some (if flagged f && moved p then UNCONVERGED else f)).
Proof.
  induction cnt as [|c IH]; intros flags i nc HL.
  - exists flags, nc. split; [reflexivity|]. split; [reflexivity|].
    split; [change (nflag (firstn 0 (skipn i flags))) with 0; lia|].
    split; [reflexivity|]. intros; lia.
  - cbn [soft_count]. destruct (get_some _ flags i) as [f Hf]; [lia|]. rewrite Hf. cbn [bind].
    destruct (negb (is_unconverged f) && moved i) eqn:E.
    + rewrite put_some by lia. cbn [bind].
      destruct (IH (upd flags i UNCONVERGED) (S i) nc) as (fl & n & E1 & E2 & E3 & E4 & E5).
      { rewrite length_upd. lia. }
      rewrite length_upd in E2. exists fl, n. split; [exact E1|]. split; [exact E2|].
      assert (Hi : get fl i = Some UNCONVERGED).
      { unfold get. rewrite E4 by lia. apply nth_error_upd_eq. lia. }
      split; [|split].
      * rewrite (window_step _ _ _ _ _ Hi), nflag_cons. cbn [is_unconverged]. lia.
      * intros p Hp. rewrite E4 by lia. apply nth_error_upd_neq. lia.
      * intros p g Hp Hg. destruct (Nat.eq_dec p i) as [->|N].
        -- unfold get in *. rewrite Hi. rewrite Hf in Hg. injection Hg as <-.
           unfold flagged. now rewrite E.
        -- apply E5; [lia|]. now rewrite nth_error_upd_neq by lia.
    + destruct (IH flags (S i) (if is_unconverged f then nc else S nc)) as (fl & n & E1 & E2 & E3 & E4 & E5); [lia|].
      exists fl, n. split; [exact E1|]. split; [exact E2|].
      assert (Hi : get fl i = Some f).
      { unfold get. now rewrite E4 by lia. }
      split; [|split].
      * rewrite (window_step _ _ _ _ _ Hi), nflag_cons. destruct (is_unconverged f); lia.
      * intros p Hp. now rewrite E4 by lia.
      * intros p g Hp Hg. destruct (Nat.eq_dec p i) as [->|N].
        -- unfold get in *. rewrite Hi. rewrite Hf in Hg. injection Hg as <-.
           unfold flagged. now rewrite E.
        -- apply E5; [lia|]. exact Hg.
Qed.

(** The shape of restartPerm: the first [m] pairs are rearranged, flagged first,
    the rest stay. *)
Lemma soft_perm_shape : forall flags nc m basisSize rp,
  m <= basisSize -> basisSize <= length flags -> basisSize <= length rp ->
  nc = nflag (firstn m flags) ->
  let W c := where_is c (soft_cls (firstn m flags) nc 0) 0 in
  soft_perm flags nc basisSize 0 0 0 rp =
    Some (W 0 ++ W 1 ++ seq m (basisSize - m) ++ skipn basisSize rp) /\
  length (W 0) = nc /\ is_perm (W 0 ++ W 1) m /\
  StronglySorted lt (W 0) /\ StronglySorted lt (W 1) /\
  (forall x, In x (W 0) -> x < m /\ exists f, nth_error flags x = Some f /\ flagged f = true).
Proof.
  intros flags nc m bs rp Hm Hb Hr Hn W.
  set (fm := firstn m flags) in *.
  assert (Lm : length fm = m) by (unfold fm; rewrite firstn_length; lia).
  assert (HW0 : length (W 0) = nc).
  { unfold W. rewrite soft_front_len by lia. lia. }
  assert (HP : Permutation (W 0 ++ W 1) (seq 0 m)).
  { pose proof (where_is_perm2 (soft_cls fm nc 0) 0 (soft_cls_lt fm nc 0)) as H.
    rewrite soft_cls_len, Lm in H. exact H. }
  assert (Hc : soft_cls (firstn bs flags) nc 0 = soft_cls fm nc 0 ++ repeat 1 (bs - m)).
  { replace (firstn bs flags) with (fm ++ firstn (bs - m) (skipn m flags)).
    - rewrite soft_cls_app by lia. rewrite Nat.add_0_l, <- Hn, Nat.min_id, soft_cls_full.
      do 2 f_equal. rewrite firstn_length, skipn_length. lia.
    - unfold fm. replace bs with (m + (bs - m)) at 2 by lia.
      rewrite <- (firstn_skipn m flags) at 3.
      rewrite firstn_app, firstn_length, Nat.min_l by lia.
      rewrite firstn_firstn, Nat.min_r by lia. f_equal. f_equal. lia. }
  split; [|split; [exact HW0|split; [exact HP|split; [apply where_is_sorted|split; [apply where_is_sorted|]]]]].
  - set (cs := soft_cls (firstn bs flags) nc 0) in *.
    assert (H0 : where_is 0 cs 0 = W 0).
    { rewrite Hc, where_is_app, where_is_repeat_neq by lia. now rewrite app_nil_r. }
    assert (H1 : where_is 1 cs 0 = W 1 ++ seq m (bs - m)).
    { rewrite Hc, where_is_app, where_is_repeat, soft_cls_len, Lm. reflexivity. }
    rewrite (soft_perm_scatter bs flags 0 nc 0 0 (fun c => match c with 0 => 0 | _ => nc end));
      [|lia|reflexivity|cbn; lia].
    change (firstn bs (skipn 0 flags)) with (firstn bs flags). fold cs.
    assert (Hl : length cs = bs) by (unfold cs; rewrite soft_cls_len, firstn_length; lia).
    destruct (scatter_two cs (fun c => match c with 0 => 0 | _ => nc end) rp) as (rp' & E1 & E2).
    + unfold cs. apply soft_cls_lt.
    + reflexivity.
    + now rewrite H0.
    + lia.
    + rewrite E1, E2, H0, H1, Hl. now rewrite <- !app_assoc.
  - intros x Hx. split.
    + assert (Hin : In x (seq 0 m)).
      { eapply Permutation_in; [exact HP|]. apply in_or_app. now left. }
      apply in_seq in Hin. lia.
    + unfold W in Hx. apply where_is_in in Hx. destruct Hx as [_ Hx]. rewrite Nat.sub_0_r in Hx.
      exact (soft_cls_front _ _ _ _ _ Hx).
Qed.

(* ------------------------------------------------------------------ *)
(** inverse permutation *)
Lemma invert_scatter : forall cnt p i b h,
  i + cnt <= length p -> NoDup (firstn cnt (skipn i p)) ->
  (forall x, In x (firstn cnt (skipn i p)) -> b x = x) ->
  invert_loop p cnt i h = scatter (firstn cnt (skipn i p)) i b h.
Proof.
  induction cnt as [|c IH]; intros p i b h HL HN HB; [reflexivity|].
  cbn [invert_loop]. destruct (get_some _ p i) as [k Hk]; [lia|]. rewrite Hk. cbn [bind].
  rewrite (window_step _ _ _ _ _ Hk) in *. cbn [scatter].
  inversion HN as [|? ? Hn HN']; subst.
  rewrite (HB k (or_introl eq_refl)).
  destruct (put h k i) as [h'|]; [|reflexivity]. cbn [bind].
  apply IH; [lia|exact HN'|]. intros x Hx. unfold bump.
  destruct (Nat.eqb_spec x k) as [->|N]; [contradiction|]. apply HB. now right.
Qed.

Lemma invert_spec : forall p n h, n <= length p -> n <= length h -> is_perm (firstn n p) n ->
  exists h', invert_loop p n 0 h = Some h' /\ length h' = length h /\
    is_perm (firstn n h') n /\
    (forall i k, i < n -> nth_error p i = Some k -> nth_error h' k = Some i) /\
    (forall i k, k < n -> nth_error h' k = Some i -> nth_error p i = Some k).
Proof.
  intros p n h Hp Hh HP.
  set (q := firstn n p) in *.
  assert (Lq : length q = n) by (unfold q; rewrite firstn_length; lia).
  assert (Hone : forall c m, m < length (where_is c q 0) -> m = 0 /\ c < n).
  { intros c m Hm. rewrite where_is_length in Hm.
    pose proof (proj1 (NoDup_count_occ Nat.eq_dec q) (is_perm_nodup _ _ HP) c).
    split; [lia|]. apply (is_perm_in q n c HP).
    apply (count_occ_In Nat.eq_dec). lia. }
  assert (Hin : forall i k, nth_error q i = Some k -> nth_error (where_is k q 0) 0 = Some i).
  { intros i k Hk. assert (HI : In i (where_is k q 0)) by (apply where_is_in; rewrite Nat.sub_0_r; split; [lia|auto]).
    destruct (In_nth_error _ _ HI) as [m Hm].
    assert (m < length (where_is k q 0)) by (apply nth_error_Some; congruence).
    destruct (Hone k m H) as [-> _]. exact Hm. }
  destruct (scatter_spec q 0 (fun c => c) h) as (h' & E & L & Hw & Hk).
  - intros c m Hm. destruct (Hone c m Hm). lia.
  - intros c c' m m' Hm Hm' He. destruct (Hone c m Hm), (Hone c' m' Hm'). lia.
  - exists h'. assert (E' : invert_loop p n 0 h = Some h').
    { rewrite (invert_scatter n p 0 (fun c => c) h); [exact E|lia| |auto].
      exact (is_perm_nodup _ _ HP). }
    assert (F1 : forall i k, i < n -> nth_error p i = Some k -> nth_error h' k = Some i).
    { intros i k Hi Hik. rewrite <- (Nat.add_0_r k). apply Hw, Hin. unfold q.
      rewrite <- Hik. rewrite <- (firstn_skipn n p) at 2. rewrite nth_error_app1; [reflexivity|].
      fold q. lia. }
    assert (Hget : forall k, k < n -> exists i, i < n /\ nth_error p i = Some k).
    { intros k Hkn. assert (HI : In k q) by (apply (is_perm_in q n k HP); auto).
      destruct (In_nth_error _ _ HI) as [i Hi]. exists i.
      assert (i < n) by (rewrite <- Lq; apply nth_error_Some; congruence). split; [auto|].
      rewrite <- (firstn_skipn n p). rewrite nth_error_app1; [exact Hi|]. fold q. lia. }
    assert (F2 : forall i k, k < n -> nth_error h' k = Some i -> nth_error p i = Some k).
    { intros i k Hkn Hi. destruct (Hget k Hkn) as (i' & Hi' & Hp').
      rewrite (F1 i' k Hi' Hp') in Hi. injection Hi as <-. exact Hp'. }
    repeat split; auto.
    apply is_perm_intro.
    + rewrite firstn_length. lia.
    + apply NoDup_nth_error. intros a b Ha Hab.
      rewrite firstn_length, Nat.min_l in Ha by lia.
      assert (Ga : nth_error (firstn n h') a = nth_error h' a).
      { rewrite <- (firstn_skipn n h') at 2. rewrite nth_error_app1; [reflexivity|]. rewrite firstn_length; lia. }
      destruct (Hget a Ha) as (ia & Hia & Hpa). rewrite Ga, (F1 ia a Hia Hpa) in Hab.
      destruct (lt_dec b n) as [Hb|Hb].
      * assert (Gb : nth_error (firstn n h') b = nth_error h' b).
        { rewrite <- (firstn_skipn n h') at 2. rewrite nth_error_app1; [reflexivity|]. rewrite firstn_length; lia. }
        destruct (Hget b Hb) as (ib & Hib & Hpb). rewrite Gb, (F1 ib b Hib Hpb) in Hab.
        injection Hab as <-. rewrite Hpa in Hpb. congruence.
      * assert (nth_error (firstn n h') b = None) by (apply nth_error_None; rewrite firstn_length; lia).
        congruence.
    + intros x Hx. destruct (In_nth_error _ _ Hx) as [a Ha].
      assert (Han : a < n).
      { assert (a < length (firstn n h')) by (apply nth_error_Some; congruence).
        rewrite firstn_length in H. lia. }
      assert (Ga : nth_error (firstn n h') a = nth_error h' a).
      { rewrite <- (firstn_skipn n h') at 2. rewrite nth_error_app1; [reflexivity|]. rewrite firstn_length; lia. }
      destruct (Hget a Han) as (ia & Hia & Hpa). rewrite Ga, (F1 ia a Hia Hpa) in Ha. congruence.
Qed.
