(** Proofs about compact copies of an upper trapezoid. *)
From Verif Require Import Base TriModel.
From Coq Require Import List Arith Lia.
Import ListNotations.

(** Position of the first entry of column [i] in the compact buffer. *)
Fixpoint colstart (i0 i : nat) : nat :=
  match i with 0 => 0 | S j => colstart i0 j + (j + i0 + 1) end.

Lemma colstart_closed : forall i0 i, (i + 1) * i / 2 + i0 * i = colstart i0 i.
Proof.
  intros i0. induction i as [|i IH]. { simpl. lia. }
  cbn [colstart]. rewrite <- IH.
  replace ((S i + 1) * S i) with ((i + 1) * i + (i + 1) * 2) by lia.
  rewrite Nat.div_add by lia. lia.
Qed.

Lemma colstart_mono : forall i0 i j, i <= j -> colstart i0 i <= colstart i0 j.
Proof. induction 1; simpl; lia. Qed.

Section T.
Context {A : Type}.

Lemma pack_row_spec : forall cnt (x : list A) src y k,
  src + cnt <= length x -> k + cnt <= length y ->
  exists y', pack_row cnt x src y k = Some (y', k + cnt) /\ length y' = length y /\
    (forall j, j < cnt -> nth_error y' (k + j) = nth_error x (src + j)) /\
    (forall p, p < k \/ k + cnt <= p -> nth_error y' p = nth_error y p).
Proof.
  induction cnt; intros x src y k Hx Hy; simpl.
  - exists y. rewrite Nat.add_0_r. repeat split; auto. intros; lia.
  - destruct (get_some _ x src) as [v Hv]; [lia|]. rewrite Hv. simpl.
    rewrite put_some by lia. simpl.
    destruct (IHcnt x (S src) (upd y k v) (S k)) as [y' [E [L [G F]]]]; rewrite ?length_upd; try lia.
    exists y'. rewrite length_upd in L. split; [rewrite E; do 2 f_equal; lia|].
    split; auto. split.
    + intros [|j] Hj.
      * rewrite !Nat.add_0_r. rewrite F by lia. rewrite nth_error_upd_eq by lia.
        symmetry; auto.
      * replace (k + S j) with (S k + j) by lia. rewrite G by lia. f_equal; lia.
    + intros p Hp. rewrite F by lia. apply nth_error_upd_neq; lia.
Qed.

Lemma pack_cols_spec : forall cols (x : list A) ldx i0 i y,
  (forall c, i <= c < i + cols -> c * ldx + (c + i0) < length x) ->
  colstart i0 (i + cols) <= length y ->
  exists y', pack_cols cols x ldx i0 i y (colstart i0 i) = Some (y', colstart i0 (i + cols)) /\
    length y' = length y /\
    (forall c j, i <= c < i + cols -> j <= c + i0 ->
       nth_error y' (colstart i0 c + j) = nth_error x (c * ldx + j)) /\
    (forall p, p < colstart i0 i \/ colstart i0 (i + cols) <= p ->
       nth_error y' p = nth_error y p).
Proof.
  induction cols; intros x ldx i0 i y Hx Hy; simpl.
  - exists y. rewrite Nat.add_0_r. repeat split; auto. intros; lia.
  - assert (Hle : colstart i0 (S i) <= colstart i0 (i + S cols)).
    { apply colstart_mono; lia. }
    simpl in Hle.
    pose proof (Hx i ltac:(lia)) as Hxi.
    destruct (pack_row_spec (i + i0 + 1) x (i * ldx) y (colstart i0 i)) as
      [y1 [E1 [L1 [G1 F1]]]]; try lia.
    rewrite E1. simpl.
    destruct (IHcols x ldx i0 (S i) y1) as [y2 [E2 [L2 [G2 F2]]]].
    + intros c Hc. apply Hx. lia.
    + rewrite L1. replace (S i + cols) with (i + S cols) by lia. auto.
    + simpl colstart in E2, G2, F2.
      replace (S (i + cols)) with (i + S cols) in * by lia.
      exists y2. split.
      { rewrite E2. do 2 f_equal. replace (i + S cols) with (S (i + cols)) by lia. reflexivity. }
      replace (colstart i0 (i + cols) + (i + cols + i0 + 1)) with (colstart i0 (i + S cols)) in *
        by (replace (i + S cols) with (S (i + cols)) by lia; reflexivity).
      split; [congruence|]. split.
      * intros c j Hc Hj. destruct (Nat.eq_dec c i).
        -- subst c. rewrite F2 by lia. apply G1. lia.
        -- apply G2; lia.
      * intros p Hp. rewrite F2 by lia. apply F1. lia.
Qed.

Lemma unpack_row_spec : forall cnt (x : list A) k y dst,
  k + cnt <= length x -> dst + cnt <= length y ->
  exists y', unpack_row cnt x (k + cnt) y dst = Some (y', k) /\ length y' = length y /\
    (forall j, j < cnt -> nth_error y' (dst + j) = nth_error x (k + j)) /\
    (forall p, p < dst \/ dst + cnt <= p -> nth_error y' p = nth_error y p).
Proof.
  induction cnt; intros x k y dst Hx Hy.
  - exists y. simpl. rewrite Nat.add_0_r. repeat split; auto. intros; lia.
  - replace (k + S cnt) with (S (k + cnt)) by lia. cbn [unpack_row].
    destruct (get_some _ x (k + cnt)) as [v Hv]; [lia|]. rewrite Hv. cbn [bind].
    rewrite put_some by lia. cbn [bind].
    destruct (IHcnt x k (upd y (dst + cnt) v) dst) as [y' [E [L [G F]]]]; rewrite ?length_upd; try lia.
    exists y'. rewrite length_upd in L. split; auto. split; auto. split.
    + intros j Hj. destruct (Nat.eq_dec j cnt).
      * subst. rewrite F by lia. rewrite nth_error_upd_eq by lia. symmetry; auto.
      * apply G; lia.
    + intros p Hp. rewrite F by lia. apply nth_error_upd_neq; lia.
Qed.

Lemma unpack_cols_spec : forall cols (x : list A) ldy i0 y,
  colstart i0 cols <= length x ->
  (forall c, c < cols -> c * ldy + (c + i0) < length y) ->
  cols + i0 <= ldy ->
  exists y', unpack_cols cols x ldy i0 (colstart i0 cols) y = Some y' /\
    length y' = length y /\
    (forall c j, c < cols -> j <= c + i0 ->
       nth_error y' (c * ldy + j) = nth_error x (colstart i0 c + j)) /\
    (forall p, (forall c j, c < cols -> j <= c + i0 -> p <> c * ldy + j) ->
       nth_error y' p = nth_error y p).
Proof.
  induction cols; intros x ldy i0 y Hx Hy Hld.
  - exists y. simpl. repeat split; auto. intros; lia.
  - cbn [unpack_cols]. cbn [colstart] in *.
    pose proof (Hy cols ltac:(lia)).
    destruct (unpack_row_spec (cols + i0 + 1) x (colstart i0 cols) y (cols * ldy)) as
      [y1 [E1 [L1 [G1 F1]]]]; try lia.
    rewrite E1. cbn [bind fst snd].
    destruct (IHcols x ldy i0 y1) as [y2 [E2 [L2 [G2 F2]]]]; try lia.
    { intros c Hc. rewrite L1. apply Hy. lia. }
    exists y2. split; auto. split; [congruence|]. split.
    + intros c j Hc Hj. destruct (Nat.eq_dec c cols).
      * subst c. rewrite F2; [apply G1; lia|].
        intros c j' Hc' Hj' Heq. nia.
      * apply G2; lia.
    + intros p Hp. rewrite F2.
      * apply F1.
        destruct (le_lt_dec (cols * ldy) p); [|lia]. right.
        destruct (le_lt_dec (cols * ldy + (cols + i0 + 1)) p); auto.
        exfalso. apply (Hp cols (p - cols * ldy)); lia.
      * intros c j Hc Hj. apply Hp; lia.
Qed.

Lemma pack_spec : forall (x : list A) m n ldx i0 y,
  n <= m ->
  (forall c, c < n -> c * ldx + (c + i0) < length x) ->
  (n + 1) * n / 2 + i0 * n <= length y ->
  exists y', pack x m n ldx i0 y = Some (y', (n + 1) * n / 2 + i0 * n) /\
    length y' = length y /\
    (forall c j, c < n -> j <= c + i0 ->
       nth_error y' ((c + 1) * c / 2 + i0 * c + j) = nth_error x (c * ldx + j)) /\
    (forall p, (n + 1) * n / 2 + i0 * n <= p -> nth_error y' p = nth_error y p).
Proof.
  intros x m n ldx i0 y Hmn Hx Hy. unfold pack.
  destruct (Nat.ltb_spec m n); [lia|].
  rewrite colstart_closed in *.
  destruct (pack_cols_spec n x ldx i0 0 y) as [y' [E [L [G F]]]].
  - intros; apply Hx; lia.
  - auto.
  - exists y'. split; [exact E|]. split; auto. split.
    + intros c j Hc Hj. rewrite colstart_closed. apply G; auto; lia.
    + intros p Hp. apply F. auto.
Qed.

Lemma unpack_spec : forall (x : list A) m n i0 y ldy,
  n <= m -> n + i0 <= ldy ->
  (n + 1) * n / 2 + i0 * n <= length x ->
  (forall c, c < n -> c * ldy + (c + i0) < length y) ->
  exists y', unpack x m n i0 y ldy = Some y' /\ length y' = length y /\
    (forall c j, c < n -> j <= c + i0 ->
       nth_error y' (c * ldy + j) = nth_error x ((c + 1) * c / 2 + i0 * c + j)) /\
    (forall p, (forall c j, c < n -> j <= c + i0 -> p <> c * ldy + j) ->
       nth_error y' p = nth_error y p).
Proof.
  intros x m n i0 y ldy Hmn Hld Hx Hy. unfold unpack.
  destruct (Nat.ltb_spec m n); [lia|].
  rewrite colstart_closed in *.
  destruct (unpack_cols_spec n x ldy i0 y) as [y' [E [L [G F]]]]; auto.
  exists y'. split; auto. split; auto. split; auto.
  intros c j Hc Hj. rewrite colstart_closed. auto.
Qed.

Lemma pack_unpack_roundtrip : forall (x buf y : list A) m n ldx ldy i0,
  n <= m -> n + i0 <= ldy ->
  (forall c, c < n -> c * ldx + (c + i0) < length x) ->
  (forall c, c < n -> c * ldy + (c + i0) < length y) ->
  (n + 1) * n / 2 + i0 * n <= length buf ->
  exists buf' y',
    pack x m n ldx i0 buf = Some (buf', (n + 1) * n / 2 + i0 * n) /\
    unpack (firstn ((n + 1) * n / 2 + i0 * n) buf') m n i0 y ldy = Some y' /\
    length buf' = length buf /\ length y' = length y /\
    (forall p, (n + 1) * n / 2 + i0 * n <= p -> nth_error buf' p = nth_error buf p) /\
    (forall c j, c < n -> j <= c + i0 ->
       nth_error y' (c * ldy + j) = nth_error x (c * ldx + j)) /\
    (forall p, (forall c j, c < n -> j <= c + i0 -> p <> c * ldy + j) ->
       nth_error y' p = nth_error y p).
Proof.
  intros x buf y m n ldx ldy i0 Hmn Hld Hx Hy Hb.
  destruct (pack_spec x m n ldx i0 buf) as [buf' [E1 [L1 [G1 F1]]]]; auto.
  set (sz := (n + 1) * n / 2 + i0 * n) in *.
  destruct (unpack_spec (firstn sz buf') m n i0 y ldy) as [y' [E2 [L2 [G2 F2]]]]; auto.
  { rewrite firstn_length. fold sz. lia. }
  exists buf', y'. repeat (split; auto).
  intros c j Hc Hj. rewrite G2 by auto. rewrite <- G1 by auto.
  assert (Hpos : (c + 1) * c / 2 + i0 * c + j < sz).
  { unfold sz. rewrite !colstart_closed.
    assert (colstart i0 (S c) <= colstart i0 n) by (apply colstart_mono; lia).
    simpl in H. lia. }
  revert Hpos. generalize ((c + 1) * c / 2 + i0 * c + j). intros q Hq.
  rewrite <- (firstn_skipn sz buf') at 2.
  rewrite nth_error_app1; auto. rewrite firstn_length. lia.
Qed.

End T.

Section Proj.
Context {A : Type} (add : A -> A -> A).

(** Sum, over the processes, of entry [q] of their arrays. *)
Fixpoint esum (zs : list (list A)) (q : nat) : option A :=
  match zs with
  | [] => None
  | [z] => nth_error z q
  | z :: t => a <- nth_error z q; s <- esum t q; Some (add a s)
  end.

Lemma zipadd_spec : forall (a b : list A), length a = length b ->
  exists c, zipadd add a b = Some c /\ length c = length a /\
    forall q, nth_error c q = (x <- nth_error a q; y <- nth_error b q; Some (add x y)).
Proof.
  induction a as [|x a IH]; destruct b as [|y b]; intros HL; try discriminate; simpl.
  - exists []. repeat split; auto. intros [|q]; auto.
  - destruct (IH b) as [c [E [L G]]]. { simpl in HL; lia. }
    rewrite E. simpl. eexists. split; [reflexivity|]. split; [simpl; lia|].
    intros [|q]; simpl; auto.
Qed.

Lemma reduce_spec : forall (bufs : list (list A)) len,
  bufs <> [] -> (forall b, In b bufs -> length b = len) ->
  exists s, reduce add bufs = Some s /\ length s = len /\
    forall q, nth_error s q = esum bufs q.
Proof.
  induction bufs as [|b t IH]; intros len Hne HL; [congruence|].
  destruct t as [|b2 t'].
  - exists b. simpl. repeat split; auto. apply HL. left; auto.
  - destruct (IH len) as [s [E [L G]]]. { congruence. } { intros; apply HL; right; auto. }
    cbn [reduce]. cbn [reduce] in E. rewrite E. cbn [bind].
    destruct (zipadd_spec b s) as [c [E2 [L2 G2]]].
    { rewrite L. apply HL. left; auto. }
    exists c. split; auto. split. { rewrite L2. apply HL; left; auto. }
    intros q. rewrite G2. rewrite G. reflexivity.
Qed.

Lemma mapM_spec : forall (B C : Type) (f : B -> option C) l,
  (forall x, In x l -> exists y, f x = Some y) ->
  exists ys, mapM f l = Some ys /\ length ys = length l /\
    forall i x, nth_error l i = Some x -> exists y, nth_error ys i = Some y /\ f x = Some y.
Proof.
  induction l as [|x t IH]; intros H; simpl.
  - exists []. repeat split; auto. intros [|i] x Hx; discriminate.
  - destruct (H x) as [y Hy]; [left; auto|]. rewrite Hy. simpl.
    destruct IH as [ys [E [L G]]]. { intros; apply H; right; auto. }
    rewrite E. simpl. exists (y :: ys). split; auto. split; [simpl; lia|].
    intros [|i] x' Hx'; simpl in *.
    + inversion Hx'; subst; eauto.
    + eauto.
Qed.

Lemma esum_eq : forall zs ps q r,
  length zs = length ps ->
  (forall i z p, nth_error zs i = Some z -> nth_error ps i = Some p ->
      nth_error p q = nth_error z r) ->
  esum ps q = esum zs r.
Proof.
  induction zs as [|z t IH]; destruct ps as [|p ps']; intros q r HL H; try discriminate; auto.
  simpl in HL.
  assert (HE : nth_error p q = nth_error z r) by (apply (H 0); auto).
  destruct t as [|z2 t'], ps' as [|p2 ps'']; try discriminate.
  - simpl. auto.
  - cbn [esum]. rewrite HE. cbn [esum] in IH.
    assert (HI : esum (p2 :: ps'') q = esum (z2 :: t') r).
    { apply IH; auto. intros i z' p' H1 H2. apply (H (S i)); auto. }
    cbn [esum] in HI. rewrite HI. auto.
Qed.

Lemma reduce_projection_spec : forall (zs : list (list A)) numCols blockSize ldZ junk,
  zs <> [] -> numCols + blockSize <= ldZ ->
  (forall z, In z zs -> length z = ldZ * blockSize) ->
  exists zs', reduce_projection add zs numCols blockSize ldZ junk = Some zs' /\
    length zs' = length zs /\
    forall p z z', nth_error zs p = Some z -> nth_error zs' p = Some z' ->
      length z' = length z /\
      (forall c r, c < blockSize -> r <= numCols + c ->
         nth_error z' (c * ldZ + r) = esum zs (c * ldZ + r)) /\
      (forall c r, c < blockSize -> numCols + c < r < ldZ ->
         nth_error z' (c * ldZ + r) = nth_error z (c * ldZ + r)).
Proof.
  intros zs numCols bs ldZ junk Hne Hld HL.
  set (m := numCols + bs). set (sz := (bs + 1) * bs / 2 + numCols * bs).
  assert (Hin : forall z, In z zs -> forall c, c < bs -> c * ldZ + (c + numCols) < length z).
  { intros z Hz c Hc. rewrite (HL z Hz). nia. }
  assert (Hsz : sz <= m * bs).
  { unfold sz, m. rewrite (Nat.mul_add_distr_r numCols).
    assert ((bs + 1) * bs / 2 <= bs * bs).
    { apply Nat.div_le_upper_bound; nia. }
    lia. }
  set (f := fun z : list A => r <- pack z m bs ldZ numCols (repeat junk (m * bs));
                  Some (firstn (snd r) (fst r))).
  assert (Hf : forall z, In z zs -> exists y, f z = Some y /\ length y = sz /\
     forall c j, c < bs -> j <= c + numCols ->
       nth_error y ((c + 1) * c / 2 + numCols * c + j) = nth_error z (c * ldZ + j)).
  { intros z Hz. unfold f.
    destruct (pack_unpack_roundtrip z (repeat junk (m * bs)) z m bs ldZ ldZ numCols)
      as [b [y [E1 [E2 [L1 [L2 [F1 [G F2]]]]]]]]; auto; try lia.
    { rewrite repeat_length. auto. }
    destruct (pack_spec z m bs ldZ numCols (repeat junk (m * bs))) as [b' [E1' [L1' [G1 _]]]];
      auto; try lia. { rewrite repeat_length; auto. }
    assert (b' = b) by congruence. subst b'.
    rewrite E1. cbn [bind fst snd]. eexists. split; [reflexivity|].
    fold sz. rewrite repeat_length in L1. split; [rewrite firstn_length; lia|].
    intros c j Hc Hj. rewrite <- G1 by auto.
    assert (Hpos : (c + 1) * c / 2 + numCols * c + j < sz).
    { unfold sz. rewrite !colstart_closed.
      assert (colstart numCols (S c) <= colstart numCols bs) by (apply colstart_mono; lia).
      simpl in H. lia. }
    revert Hpos. generalize ((c + 1) * c / 2 + numCols * c + j). intros q Hq.
    rewrite <- (firstn_skipn sz b) at 2.
    rewrite nth_error_app1; auto. rewrite firstn_length. lia. }
  unfold reduce_projection. fold m. fold f.
  destruct (mapM_spec _ _ f zs) as [ps [EP [LP GP]]].
  { intros z Hz. destruct (Hf z Hz) as [y [? _]]. eauto. }
  rewrite EP. cbn [bind].
  destruct (reduce_spec ps sz) as [s [ES [LS GS]]].
  { destruct ps; [|congruence]. destruct zs; [congruence|discriminate]. }
  { intros b Hb. apply In_nth_error in Hb. destruct Hb as [i Hi].
    destruct (nth_error zs i) as [z|] eqn:EZ.
    - destruct (GP i z EZ) as [y [Hy1 Hy2]].
      destruct (Hf z) as [y' [Hy' [Ly _]]]. { eapply nth_error_In; eauto. }
      congruence.
    - apply nth_error_None in EZ. rewrite <- LP in EZ. apply nth_error_None in EZ. congruence. }
  rewrite ES. cbn [bind].
  destruct (mapM_spec _ _ (fun z => unpack s m bs numCols z ldZ) zs) as [zs' [EU [LU GU]]].
  { intros z Hz. destruct (unpack_spec s m bs numCols z ldZ) as [y [? _]]; auto; try lia.
    eauto. }
  exists zs'. split; auto. split; auto.
  intros p z z' Hz Hz'.
  assert (HIn : In z zs) by (eapply nth_error_In; eauto).
  destruct (GU p z Hz) as [y [Hy1 Hy2]].
  assert (y = z') by congruence. subst y.
  destruct (unpack_spec s m bs numCols z ldZ) as [y [EE [LL [GG FF]]]]; auto; try lia.
  assert (y = z') by congruence. subst y.
  split; auto. split.
  - intros c r Hc Hr. rewrite GG by lia. rewrite GS.
    apply esum_eq; auto.
    intros i zi pi Hzi Hpi.
    destruct (GP i zi Hzi) as [yi [Hyi1 Hyi2]].
    destruct (Hf zi) as [yi' [Hyi' [_ HG]]]. { eapply nth_error_In; eauto. }
    assert (yi' = pi) by congruence. subst yi'. apply HG; lia.
  - intros c r Hc Hr. apply FF.
    intros c' j Hc' Hj Heq.
    assert (c' = c).
    { destruct (lt_eq_lt_dec c' c) as [[?|?]|?]; auto; exfalso; nia. }
    subst. lia.
Qed.

End Proj.
