(** Property C30: block copies inside one array. *)
From Coq Require Import List Arith Bool Lia Sorting.Sorted.
From Verif Require Import Base CopyModel CopyProofs.
Import ListNotations.

(** The n columns of m rows at [y] (leading dimension [ldy]) hold what the
    columns at [x] held before; every other cell is unchanged. *)
Definition block_copied {A} (mem mem' : list A) (x m n ldx y ldy : nat) : Prop :=
  length mem' = length mem /\
  (forall i j, i < n -> j < m ->
     nth_error mem' (y + i * ldy + j) = nth_error mem (x + i * ldx + j)) /\
  (forall p, (forall i j, i < n -> j < m -> p <> y + i * ldy + j) ->
     nth_error mem' p = nth_error mem p).

Definition inside {A} (mem : list A) (x m n ld : nat) : Prop :=
  forall i j, i < n -> j < m -> x + i * ld + j < length mem.

Lemma moved_block : forall A (mem mem' : list A) x m n ldx y ldy ms,
  (forall mv, In mv ms <-> In mv (all_moves x m n ldx y ldy)) ->
  moved mem mem' ms -> block_copied mem mem' x m n ldx y ldy.
Proof.
  intros A mem mem' x m n ldx y ldy ms E (L & K & O). split; auto. split.
  - intros i j I J. apply K. apply E. apply in_all. eauto 6.
  - intros p P. apply O. intro H. apply in_map_iff in H. destruct H as ([s t] & T & H).
    cbn in T; subst t. apply E in H. apply in_all in H. destruct H as (i & j & I & J & _ & T).
    exact (P i j I J T).
Qed.

Lemma in_flat_rev : forall {B} (f : nat -> list B) l mv,
  In mv (flat_map f (rev l)) <-> In mv (flat_map f l).
Proof.
  intros. rewrite !in_flat_map. split; intros (i & I & H); exists i; split; auto;
  [now apply in_rev | now apply -> in_rev].
Qed.

Lemma mul_step : forall ld i i', i < i' -> i * ld + ld <= i' * ld.
Proof. intros. replace i' with (i + 1 + (i' - i - 1)) by lia. nia. Qed.

(** Same leading dimension: every shift is safe except (1) exactly one column
    forward with padded columns and (2) a forward shift by rows that makes a
    column run into the next one. *)
Theorem C30_copy_overlapping : forall A (mem : list A) x y m n ld,
  m <= ld -> inside mem x m n ld -> inside mem y m n ld ->
  ~ (y = x + ld /\ m < ld /\ 2 <= n) ->
  ~ (x < y < x + ld /\ x + ld < y + m /\ m < ld /\ 2 <= n) ->
  exists mem', exec mem (copy_matrix x m n ld y ld) = Some mem' /\
    block_copied mem mem' x m n ld y ld.
Proof.
  intros A mem x y m n ld M IX IY NB1 NB2. unfold copy_matrix. rewrite Nat.eqb_refl.
  cbn [andb]. rewrite !andb_true_r.
  destruct (Nat.eqb_spec x y) as [->|NE].
  { exists mem. split; auto. repeat split; auto. }
  destruct (Nat.eqb_spec m 0) as [->|M0].
  { exists mem. split; auto. repeat split; auto; intros; lia. }
  destruct (Nat.eqb_spec n 0) as [->|N0].
  { exists mem. split; auto. repeat split; auto; intros; lia. }
  cbn [orb].
  destruct (Nat.eqb_spec ld m) as [LM|LM].
  { (* contiguous memmove *)
    destruct (exec_ok [map (fun k => (x + k, y + k)) (seq 0 (m * n))] mem) as (mem' & E & MV).
    - cbn. rewrite app_nil_r. intros s t I. apply in_map_iff in I.
      destruct I as (k & KE & I). injection KE as <- <-. apply in_seq in I.
      assert (D : k = (k / m) * m + k mod m) by (rewrite (Nat.div_mod k m) at 1; lia).
      assert (B1 : k / m < n) by (apply Nat.div_lt_upper_bound; lia).
      assert (B2 : k mod m < m) by (apply Nat.mod_upper_bound; lia).
      specialize (IX (k / m) (k mod m) B1 B2). specialize (IY (k / m) (k mod m) B1 B2). subst ld. lia.
    - cbn. rewrite app_nil_r, map_map. cbn.
      apply FinFun.Injective_map_NoDup; [intros a b; lia | apply seq_NoDup].
    - intros [|? [|]] b p2 EE s t s' t' I J; cbn in EE; injection EE; intros; subst;
      try discriminate; cbn in J; contradiction.
    - exists mem'. split; auto. apply (moved_block A mem mem' x m n ld y ld _ (fun mv => iff_refl _)).
      destruct MV as (L & K & O). split; auto. cbn in K, O. rewrite app_nil_r in K, O.
      assert (IF : forall s t, In (s, t) (all_moves x m n ld y ld) <->
                   In (s, t) (map (fun k => (x + k, y + k)) (seq 0 (m * n)))).
      { intros s t. rewrite in_all, in_map_iff. subst ld. split.
        - intros (i & j & I & J & -> & ->). exists (i * m + j). split; [f_equal; lia|].
          apply in_seq. pose proof (mul_step m i n I). lia.
        - intros (k & KE & I). injection KE as <- <-. apply in_seq in I.
          exists (k / m), (k mod m).
          assert (D : k = (k / m) * m + k mod m) by (rewrite (Nat.div_mod k m) at 1; lia).
          assert (B1 : k / m < n) by (apply Nat.div_lt_upper_bound; lia).
          assert (B2 : k mod m < m) by (apply Nat.mod_upper_bound; lia).
          repeat split; auto; lia. }
      split.
      + intros s t I. apply K. now apply IF.
      + intros p P. apply O. intro H. apply P. apply in_map_iff in H.
        destruct H as ([s t] & T & H). cbn in T; subst t. apply IF in H.
        change p with (snd (s, p)). now apply in_map. }
  assert (BND : forall s t, In (s, t) (all_moves x m n ld y ld) -> s < length mem /\ t < length mem).
  { intros s t I. apply in_all in I. destruct I as (i & j & I & J & -> & ->). auto. }
  destruct (Nat.ltb_spec (if x <? y then y - x else x - y) ld) as [NEAR|FAR].
  { (* one memmove per column *)
    destruct (exec_ok (map (col_moves x ld y ld m) (seq 0 n)) mem) as (mem' & E & MV).
    - rewrite <- flat_map_concat_map. exact BND.
    - rewrite <- flat_map_concat_map. apply nodup_targets; auto. apply seq_NoDup.
    - intros p1 b p2 EE s t s' t' I J T.
      apply map_eq_app in EE. destruct EE as (l1 & l2 & EL & E1 & E2).
      destruct l2 as [|i l2]; [discriminate|]. cbn in E2. injection E2 as <- <-.
      apply in_col in I. destruct I as (j & J1 & -> & ->).
      rewrite <- flat_map_concat_map in J. apply in_flat_map in J.
      destruct J as (i' & I' & J). apply in_col in J. destruct J as (j' & J2 & -> & _).
      assert (LT : i < i' < n).
      { apply in_split in I'. destruct I' as (u & v & ->).
        assert (S : StronglySorted lt (seq 0 n) /\ True) by (split; auto; clear;
          generalize 0; induction n; intro k; cbn; constructor; auto;
          apply Forall_forall; intros z Z; apply in_seq in Z; lia).
        rewrite EL in S. destruct S as [S _].
        assert (ii : In i' (seq 0 n)) by (rewrite EL; apply in_or_app; right; right;
          apply in_or_app; right; left; auto).
        apply in_seq in ii. split; [|lia].
        clear - S. induction l1 as [|z l1 IH]; cbn in S; inversion S; subst; auto.
        rewrite Forall_forall in H2. apply H2. apply in_or_app; right; left; auto. }
      pose proof (mul_step ld i i' ltac:(lia)).
      destruct (Nat.ltb_spec x y); [|lia].
      apply NB2. lia.
    - exists mem'. split; auto. apply (moved_block A mem mem' x m n ld y ld _ (fun mv => iff_refl _)).
      unfold all_moves. now rewrite flat_map_concat_map. }
  destruct (Nat.ltb_spec x y) as [XY|XY]; cbn [andb].
  2:{ (* backward: columns ascending *)
    destruct (exec_ok (flat_map (fun i => singly (col_moves x ld y ld m i)) (seq 0 n)) mem)
      as (mem' & E & MV).
    - rewrite concat_flat_singly. exact BND.
    - rewrite concat_flat_singly. apply nodup_targets; auto. apply seq_NoDup.
    - intros p1 b p2 EE s t s' t' I J T.
      apply flat_singly_split in EE. destruct EE as (l1 & i & l2 & b1 & mv & b2 & EL & EC & -> & EP).
      apply col_split in EC. destruct EC as (-> & LB & FB).
      destruct I as [I|[]]. injection I as <- <-.
      pose proof (eq_ind _ (fun l => In (s', t') l) J _ EP) as J0; clear J; rename J0 into J. apply in_app_or in J. destruct J as [J|J].
      + apply FB in J. destruct J as (j & Hj & ->). lia.
      + apply in_flat_map in J. destruct J as (i' & I' & J). apply in_col in J.
        destruct J as (j' & J2 & -> & _).
        assert (LT : i < i').
        { clear - EL I'. revert l1 EL. generalize 0. induction n as [|n' IH]; intros k [|z l1] EL;
          cbn in EL; try discriminate.
          - injection EL as <- EL. rewrite <- EL in I'. apply in_seq in I'. lia.
          - injection EL as <- EL. exact (IH _ _ EL). }
        pose proof (mul_step ld i i' LT). lia.
    - exists mem'. split; auto. apply (moved_block A mem mem' x m n ld y ld _ (fun mv => iff_refl _)).
      unfold all_moves. rewrite concat_flat_singly in MV. exact MV. }
  destruct (Nat.ltb_spec ld (y - x)) as [LX|LX].
  { (* forward: columns descending *)
    destruct (exec_ok (flat_map (fun i => singly (col_moves x ld y ld m i)) (rev (seq 0 n))) mem)
      as (mem' & E & MV).
    - rewrite concat_flat_singly. intros s t I. apply (proj1 (in_flat_rev _ _ _)) in I. exact (BND s t I).
    - rewrite concat_flat_singly. apply nodup_targets; auto. apply NoDup_rev, seq_NoDup.
    - intros p1 b p2 EE s t s' t' I J T.
      apply flat_singly_split in EE. destruct EE as (l1 & i & l2 & b1 & mv & b2 & EL & EC & -> & EP).
      apply col_split in EC. destruct EC as (-> & LB & FB).
      destruct I as [I|[]]. injection I as <- <-.
      pose proof (eq_ind _ (fun l => In (s', t') l) J _ EP) as J0; clear J; rename J0 into J. apply in_app_or in J. destruct J as [J|J].
      + apply FB in J. destruct J as (j & Hj & ->). lia.
      + apply in_flat_map in J. destruct J as (i' & I' & J). apply in_col in J.
        destruct J as (j' & J2 & -> & _).
        assert (LT : i' < i).
        { assert (EL' : seq 0 n = rev l2 ++ i :: rev l1).
          { rewrite <- (rev_involutive (seq 0 n)), EL, rev_app_distr. cbn.
            now rewrite <- app_assoc. }
          apply in_rev in I'. clear - EL' I'. revert EL'. generalize 0. revert I'.
          generalize (rev l2). intros l I'. revert n. induction l as [|z l IH]; intros n k E;
          [contradiction|]. destruct n; [discriminate|]. cbn in E. injection E as <- E.
          destruct I' as [<-|I'].
          - assert (In i (seq (S k) n)) by (rewrite E; apply in_or_app; right; left; auto).
            apply in_seq in H. lia.
          - exact (IH I' _ _ E). }
        pose proof (mul_step ld i' i LT). lia.
    - exists mem'. split; auto. apply (moved_block A mem mem' x m n ld y ld _ (fun mv => iff_refl _)).
      unfold all_moves. rewrite concat_flat_singly in MV.
      destruct MV as (L & K & O). split; auto. split.
      + intros s t I. apply K. now apply (proj2 (in_flat_rev _ _ _)).
      + intros p P. apply O. intro H. apply P. apply in_map_iff in H.
        destruct H as ([s t] & T & H). apply (proj1 (in_flat_rev _ _ _)) in H. apply in_map_iff. eauto. }
  (* exactly one column forward *)
  assert (y = x + ld) by lia.
  assert (n = 1) by lia. subst n. cbn [seq flat_map]. rewrite app_nil_r.
  destruct (exec_ok (singly (col_moves x ld y ld m 0)) mem) as (mem' & E & MV).
  - rewrite concat_singly. intros s t I. apply BND. unfold all_moves. cbn [seq flat_map].
    now rewrite app_nil_r.
  - rewrite concat_singly. pose proof (nodup_targets x m ld y ld [0] M) as ND.
    cbn [flat_map] in ND. rewrite app_nil_r in ND. apply ND. repeat constructor. intros [].
  - intros p1 b p2 EE s t s' t' I J T.
    apply singly_split in EE. destruct EE as (b1 & mv & b2 & EC & -> & EP).
    apply col_split in EC. destruct EC as (-> & LB & FB).
    destruct I as [I|[]]. injection I as <- <-.
    pose proof (eq_ind _ (fun l => In (s', t') l) J _ EP) as J0; clear J; rename J0 into J. apply FB in J. destruct J as (j & Hj & ->). lia.
  - exists mem'. split; auto. apply (moved_block A mem mem' x m 1 ld y ld _ (fun mv => iff_refl _)).
    unfold all_moves. cbn [seq flat_map]. rewrite app_nil_r. rewrite concat_singly in MV. exact MV.
Qed.

(** Disjoint blocks with any leading dimensions. *)
Theorem C30_copy_disjoint : forall A (mem : list A) x y m n ldx ldy,
  m <= ldx -> m <= ldy -> inside mem x m n ldx -> inside mem y m n ldy -> ldx <> ldy ->
  (forall i j i' j', i < n -> j < m -> i' < n -> j' < m ->
     x + i * ldx + j <> y + i' * ldy + j') ->
  exists mem', exec mem (copy_matrix x m n ldx y ldy) = Some mem' /\
    block_copied mem mem' x m n ldx y ldy.
Proof.
  intros A mem x y m n ldx ldy MX MY IX IY NL DJ. unfold copy_matrix.
  destruct (Nat.eqb_spec ldx ldy); [contradiction|]. rewrite andb_false_r. cbn [andb].
  destruct (Nat.eqb_spec m 0) as [->|M0].
  { exists mem. split; auto. repeat split; auto; intros; lia. }
  destruct (Nat.eqb_spec n 0) as [->|N0].
  { exists mem. split; auto. repeat split; auto; intros; lia. }
  cbn [orb].
  assert (BND : forall s t, In (s, t) (all_moves x m n ldx y ldy) -> s < length mem /\ t < length mem).
  { intros s t I. apply in_all in I. destruct I as (i & j & I & J & -> & ->). auto. }
  destruct (exec_ok (flat_map (fun i => singly (col_moves x ldx y ldy m i)) (seq 0 n)) mem)
    as (mem' & E & MV).
  - rewrite concat_flat_singly. exact BND.
  - rewrite concat_flat_singly. apply nodup_targets; auto. apply seq_NoDup.
  - intros p1 b p2 EE s t s' t' I J T.
    assert (I2 : In (s, t) (all_moves x m n ldx y ldy)).
    { unfold all_moves. rewrite <- concat_flat_singly, EE, concat_app. cbn.
      apply in_or_app; right; apply in_or_app; auto. }
    assert (J2 : In (s', t') (all_moves x m n ldx y ldy)).
    { unfold all_moves. rewrite <- concat_flat_singly, EE, concat_app. cbn.
      apply in_or_app; right; apply in_or_app; auto. }
    apply in_all in I2, J2. destruct I2 as (i & j & I3 & J3 & -> & ->).
    destruct J2 as (i' & j' & I4 & J4 & -> & ->). symmetry in T.
    exact (DJ _ _ _ _ I4 J4 I3 J3 T).
  - exists mem'. split; auto. apply (moved_block A mem mem' x m n ldx y ldy _ (fun mv => iff_refl _)).
    unfold all_moves. rewrite concat_flat_singly in MV. exact MV.
Qed.

(** Three columns of two rows, padded to three: shift forward two columns. *)
Example C30_nonvacuous :
  exec [1;2;0; 3;4;0; 5;6;0; 7;8;0; 9;10;0] (copy_matrix 0 2 3 3 6 3)
    = Some [1;2;0; 3;4;0; 1;2;0; 3;4;0; 5;6;0].
Proof. reflexivity. Qed.

(** Exactly one column forward with padded columns: the first column is copied
    over all the others, although overlapping blocks are documented as allowed. *)
Theorem C30_shift_one_column_refuted : forall (a b c d p q r s t : nat),
  exec [a;b;p; c;d;q; r;s;t] (copy_matrix 0 2 2 3 3 3) = Some [a;b;p; a;b;q; a;b;t].
Proof. reflexivity. Qed.

(** A forward shift by rows past the leading dimension. *)
Theorem C30_shift_rows_refuted : exists mem mem' : list nat,
  exec mem (copy_matrix 0 2 2 3 2 3) = Some mem' /\
  ~ block_copied mem mem' 0 2 2 3 2 3.
Proof.
  exists [1;2;3;4;5;6;7;8;9]. eexists. split; [reflexivity|].
  intros (_ & K & _). specialize (K 1 0 ltac:(lia) ltac:(lia)). discriminate K.
Qed.

Print Assumptions C30_copy_overlapping.
Print Assumptions C30_copy_disjoint.
Print Assumptions C30_shift_one_column_refuted.
Print Assumptions C30_shift_rows_refuted.
