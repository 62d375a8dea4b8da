(** C57: what a restart with locking leaves in the basis and the block, for every
    number of rows, set of failed pairs and sizes. *)
From Coq Require Import List Arith Bool Lia.
From Verif Require Import Base Values ProjModel MatAlg RestartModel VwxrModel MoveModel SpecMove.
Import ListNotations.

(** A merge of the candidates i.. i'-1 with the failed pairs left+j.. left+j'-1. *)
Inductive merged (left : nat) : nat -> nat -> nat -> nat -> list nat -> Prop :=
| merged_nil i j : merged left i j i j []
| merged_cand i j i' j' l : merged left (S i) j i' j' l -> merged left i j i' j' (i :: l)
| merged_fail i j i' j' l : merged left i (S j) i' j' l -> merged left i j i' j' (left + j :: l).

Lemma merged_le left i j i' j' l : merged left i j i' j' l -> i <= i' /\ j <= j' /\ length l = (i' - i) + (j' - j).
Proof. induction 1; cbn [length]; lia. Qed.
Lemma merged_app left i j i' j' l i2 j2 l2 :
  merged left i j i' j' l -> merged left i' j' i2 j2 l2 -> merged left i j i2 j2 (l ++ l2).
Proof. induction 1; intros; cbn [app]; auto; constructor; auto. Qed.

Lemma merged_inv left i j i' j' e l : merged left i j i' j' (e :: l) ->
  (e = i /\ merged left (S i) j i' j' l) \/ (e = left + j /\ merged left i (S j) i' j' l).
Proof. intros H. inversion H; subst; auto. Qed.

Section Columns.
Context {K : Type} (o : scal K).
Variables (pbs : nat).
Variables (hasB : bool) (left packed failed sb nd : nat) (ifl perm rest : list nat) (idx : nat) (vals : nat -> K).
Let rs := left + packed.
Let g := merge_args hasB left rs failed sb nd ifl (perm ++ rest) vals.
Let pf (j : nat) := nth j ifl 0.
Hypothesis Hidx : idx <= left.
Hypothesis Hsb : sb <= idx.
Hypothesis Hnd : nd <= sb.
Hypothesis Hlen : failed <= length ifl.
Hypothesis Hbnd : forall j, j < failed -> pf j < packed.
Hypothesis Hinc : forall j j', j < j' < failed -> pf j < pf j'.
Hypothesis Hm : merged left 0 0 idx failed perm.

Lemma pf_ge : forall j, j < failed -> j <= pf j.
Proof.
  induction j; intros; [lia|]. specialize (IHj ltac:(lia)). specialize (Hinc j (S j) ltac:(lia)). lia.
Qed.
Lemma get_pf : forall j, j < failed -> get ifl j = Some (pf j).
Proof. intros. unfold get, pf. apply nth_error_nth'. lia. Qed.

(** What block column [id] must receive from the memory before. *)
Definition wanted (mem : @memory K) (a id r : nat) : K :=
  let e := nth id perm 0 in
  if e <? left then mem a (rs + e) r
  else if a =? 1 then ksub o (mem 1 (left + pf (e - left)) r)
                       (kmul o (vals (left + pf (e - left))) (mem (mass hasB) (left + pf (e - left)) r))
  else mem a (left + pf (e - left)) r.

Definition shifted (mem : @memory K) (i k M a c r : nat) : K :=
  if in_basis hasB a && (left <=? c) && (c <? left + i) && in_rows k M r
  then mem a (left + pf (c - left)) r else mem a c r.

Lemma shifted_out mem i k M a c r : c < left \/ left + i <= c -> shifted mem i k M a c r = mem a c r.
Proof.
  intros H. unfold shifted.
  destruct (Nat.leb_spec left c), (Nat.ltb_spec c (left + i)); rewrite ?andb_false_r; cbn [andb];
    rewrite ?andb_false_r; auto; lia.
Qed.

Record ok (mem : @memory K) (k M : nat) (s : @inner K) : Prop := Ok {
  ok_mem : forall a c r, n_mem s a c r = shifted mem (n_i s) k M a c r;
  ok_X : forall id r, id < n_id s -> id < nd -> r < M -> n_X s id r = wanted mem 0 id (k + r);
  ok_R : forall id r, id < n_id s -> id < nd -> r < M -> n_R s id r = wanted mem 1 id (k + r);
  ok_B : hasB = true -> forall id r, id < n_id s -> id < nd -> r < M -> n_BX s id r = wanted mem 2 id (k + r);
  ok_i : n_i s <= failed;
  ok_l : n_id s <= nd -> n_i s + n_io s = n_id s /\ merged left (n_io s) (n_i s) idx failed (skipn (n_id s) perm) }.

Lemma in_rows_at k M r : r < M -> in_rows k M (k + r) = true.
Proof. intros. unfold in_rows. apply andb_true_intro. split; [apply Nat.leb_le|apply Nat.ltb_lt]; lia. Qed.

Lemma moved_mem mem k M i a c r :
  i < failed ->
  (let m0 := fun a c r => shifted mem i k M a c r in
   let m1 := cpn (0, left + pf i) (0, left + i) 1 k M m0 in
   let m2 := match (if hasB then Some (2, left) else None) with
             | Some b => cpn (col b (pf i)) (col b i) 1 k M m1 | None => m1 end in
   cpn (1, left + pf i) (1, left + i) 1 k M m2) a c r
  = shifted mem (S i) k M a c r.
Proof.
  intros Hi. pose proof (pf_ge i Hi) as G. cbv zeta.
  assert (S0 : forall a r, shifted mem i k M a (left + pf i) r = mem a (left + pf i) r)
    by (intros; apply shifted_out; lia).
  assert (ST : forall a c r, c <> left + i -> shifted mem i k M a c r = shifted mem (S i) k M a c r).
  { intros a0 c0 r0 N. unfold shifted.
    destruct (Nat.leb_spec left c0), (Nat.ltb_spec c0 (left + i)), (Nat.ltb_spec c0 (left + S i));
      try reflexivity; lia. }
  assert (SI : forall a r, shifted mem (S i) k M a (left + i) r
             = if in_basis hasB a && in_rows k M r then mem a (left + pf i) r else mem a (left + i) r).
  { intros a0 r0. unfold shifted. rewrite (proj2 (Nat.leb_le left (left + i)) ltac:(lia)).
    rewrite (proj2 (Nat.ltb_lt (left + i) (left + S i)) ltac:(lia)), !andb_true_r.
    replace (left + i - left) with i by lia. reflexivity. }
  assert (E1 : forall c, (left + i <=? c) && (c <? left + i + 1) = (c =? left + i)).
  { intros c0. destruct (Nat.leb_spec (left + i) c0), (Nat.ltb_spec c0 (left + i + 1)), (Nat.eqb_spec c0 (left + i)); cbn [andb]; auto; lia. }
  assert (IC : forall b a c, in_cols (b, left + i) 1 a c = (a =? b) && (c =? left + i)).
  { intros. unfold in_cols. cbn [Datatypes.fst Datatypes.snd]. rewrite <- andb_assoc, E1. reflexivity. }
  destruct (Nat.eqb_spec c (left + i)) as [->|N].
  - rewrite SI.
    destruct hasB eqn:HB; unfold col; cbn [Datatypes.fst Datatypes.snd]; unfold cpn;
      cbn [Datatypes.fst Datatypes.snd]; rewrite !IC, !Nat.eqb_refl, !andb_true_r, !Nat.sub_diag, !Nat.add_0_r;
      unfold in_basis; cbn [andb].
    + destruct (Nat.eqb_spec a 0) as [->|]; [|destruct (Nat.eqb_spec a 1) as [->|]; [|destruct (Nat.eqb_spec a 2) as [->|]]];
        destruct (in_rows k M r) eqn:IR; cbn [andb orb Nat.eqb]; rewrite ?S0, ?andb_false_r; cbn [andb];
        rewrite ?S0, ?(shifted_out mem i k M _ (left + i)) by lia; auto; cbn [andb orb Nat.eqb]; rewrite ?IC; cbn [andb Nat.eqb]; auto.
    + destruct (Nat.eqb_spec a 0) as [->|]; [|destruct (Nat.eqb_spec a 1) as [->|]];
        destruct (in_rows k M r) eqn:IR; cbn [andb orb Nat.eqb]; rewrite ?S0, ?andb_false_r; cbn [andb];
        rewrite ?S0, ?(shifted_out mem i k M _ (left + i)) by lia; auto; rewrite ?IC; cbn [andb Nat.eqb]; auto.
  - rewrite <- ST by auto.
    assert (IC' : forall b a, in_cols (b, left + i) 1 a c = false).
    { intros. rewrite IC. rewrite (proj2 (Nat.eqb_neq _ _) N). apply andb_false_r. }
    destruct hasB; unfold col; cbn [Datatypes.fst Datatypes.snd]; unfold cpn;
      cbn [Datatypes.fst Datatypes.snd]; rewrite !IC'; reflexivity.
Qed.

Lemma nd_perm : nd <= length perm.
Proof. pose proof (merged_le _ _ _ _ _ _ Hm). lia. Qed.

Lemma put_same (b : @buffer K) id f r : put_col b id f id r = f r.
Proof. unfold put_col. now rewrite Nat.eqb_refl. Qed.
Lemma put_other (b : @buffer K) id f c r : c <> id -> put_col b id f c r = b c r.
Proof. intros. unfold put_col. now rewrite (proj2 (Nat.eqb_neq _ _)). Qed.

Lemma body_ok mem k M s :
  ok mem k M s -> n_i s < failed \/ n_id s < nd ->
  exists s', body o g k M s = Some s' /\ ok mem k M s' /\ n_id s' = S (n_id s) /\
    (nd - n_id s') + (failed - n_i s') < (nd - n_id s) + (failed - n_i s).
Proof.
  intros [Om OX OR OB Oi Ol] Hgo. unfold body, takes_old.
  change (g_nd g) with nd. change (g_no g) with sb. change (g_n g) with failed. change (g_p g) with ifl.
  change (g_pd g) with (perm ++ rest). change (g_io0 g) with 0.
  change (g_xo g) with (0, rs). change (g_ro g) with (1, rs).
  change (g_x g) with (0, left). change (g_Ax g) with (1, left).
  change (g_Bxo g) with (if hasB then Some (2, rs) else None).
  change (g_Bx g) with (if hasB then Some (2, left) else None).
  change (g_vals g) with (fun j => vals (left + j)).
  assert (MV : forall a c r, n_i s < failed ->
    (let m1 := cpn (0, left + pf (n_i s)) (0, left + n_i s) 1 k M (n_mem s) in
     let m2 := match (if hasB then Some (2, left) else None) with
               | Some b => cpn (col b (pf (n_i s))) (col b (n_i s)) 1 k M m1 | None => m1 end in
     cpn (1, left + pf (n_i s)) (1, left + n_i s) 1 k M m2) a c r
    = shifted mem (S (n_i s)) k M a c r).
  { intros a c r Hi. rewrite <- (moved_mem mem k M (n_i s) a c r Hi).
    destruct hasB; unfold col; cbn [Datatypes.fst Datatypes.snd]; unfold cpn; cbn [Datatypes.fst Datatypes.snd]; rewrite !Om; reflexivity. }
  destruct (Nat.ltb_spec (n_id s) nd) as [Hid|Hid].
  - (* inside the block *)
    destruct (Ol ltac:(lia)) as [Es Me].
    assert (Lp : n_id s < length perm) by (pose proof nd_perm; lia).
    assert (Ge : get (perm ++ rest) (n_id s) = Some (nth (n_id s) perm 0)).
    { unfold get. rewrite nth_error_app1 by lia. apply nth_error_nth'. lia. }
    assert (SK : skipn (n_id s) perm = nth (n_id s) perm 0 :: skipn (S (n_id s)) perm).
    { clear - Lp. revert Lp. generalize (n_id s). induction perm as [|x t IH]; intros n L; [cbn in L; lia|].
      destruct n; [reflexivity|]. cbn [skipn nth]. apply IH. cbn [length] in L. lia. }
    rewrite (proj2 (Nat.ltb_lt (n_io s) sb)) by lia. cbn [andb]. rewrite Ge. cbn [bind].
    pose proof (merged_le _ _ _ _ _ _ Me) as MLE.
    rewrite SK in Me. destruct (merged_inv _ _ _ _ _ _ _ Me) as [[EE M1]|[EE M1]].
    + (* a candidate *)
      rewrite EE. rewrite Nat.add_0_r, Nat.eqb_refl.
      eexists; split; [reflexivity|]. cbn [n_mem n_X n_BX n_R n_i n_id n_io]. split; [|split; [reflexivity|lia]].
      assert (WC : forall a r, n_io s < left ->
                n_mem s a (rs + n_io s) r = wanted mem a (n_id s) r).
      { intros a r Hl. rewrite Om, shifted_out by (unfold rs in *; pose proof Hidx; 
          pose proof (merged_le _ _ _ _ _ _ Me);
          destruct (Nat.le_gt_cases (n_i s) packed); [lia|
            exfalso; assert (Q : n_i s - 1 < failed) by lia; pose proof (pf_ge _ Q); pose proof (Hbnd _ Q); lia]).
        unfold wanted. rewrite EE. now rewrite (proj2 (Nat.ltb_lt _ _) Hl). }
      assert (Hl : n_io s < left) by lia.
      constructor; cbn [n_mem n_X n_BX n_R n_i n_id n_io]; auto.
      * intros id r H1 H2 H3. destruct (Nat.eq_dec id (n_id s)) as [->|N].
        -- rewrite put_same. unfold rows_of, col. cbn [Datatypes.fst Datatypes.snd]. apply WC; auto.
        -- rewrite put_other by auto. apply OX; lia.
      * intros id r H1 H2 H3. destruct (Nat.eq_dec id (n_id s)) as [->|N].
        -- rewrite put_same. unfold rows_of, col. cbn [Datatypes.fst Datatypes.snd]. apply WC; auto.
        -- rewrite put_other by auto. apply OR; lia.
      * intros HB id r H1 H2 H3. rewrite HB. destruct (Nat.eq_dec id (n_id s)) as [->|N].
        -- rewrite put_same. unfold rows_of, col. cbn [Datatypes.fst Datatypes.snd]. apply WC; auto.
        -- rewrite put_other by auto. apply OB; auto; lia.
      * intros _. split; [lia|]. exact M1.
    + (* a failed pair *)
      pose proof (merged_le _ _ _ _ _ _ M1) as ML.
      assert (Hi : n_i s < failed) by lia.
      rewrite EE. rewrite (proj2 (Nat.eqb_neq (left + n_i s) (n_io s + 0))) by lia.
      rewrite (proj2 (Nat.ltb_lt (n_i s) failed)) by lia. rewrite orb_true_r.
      rewrite get_pf by auto. cbn [bind]. cbv zeta.
      set (m3 := cpn (col (1, left) (pf (n_i s))) _ 1 k M _).
      assert (M3 : forall a c r, m3 a c r = shifted mem (S (n_i s)) k M a c r).
      { intros a c r. rewrite <- (MV a c r Hi). reflexivity. }
      assert (WF : forall a r, r < M -> a <> 1 -> in_basis hasB a = true -> m3 a (left + pf (n_i s)) (k + r) = wanted mem a (n_id s) (k + r)).
      { intros a r Hr Na Hb. rewrite M3. unfold wanted. rewrite EE.
        rewrite (proj2 (Nat.ltb_ge (left + n_i s) left)) by lia. rewrite (proj2 (Nat.eqb_neq _ _) Na).
        replace (left + n_i s - left) with (n_i s) by lia.
        pose proof (pf_ge _ Hi). destruct (Nat.eq_dec (pf (n_i s)) (n_i s)) as [Q|Q].
        - unfold shifted. rewrite in_rows_at by auto. rewrite Hb. rewrite (proj2 (Nat.leb_le _ _)) by lia.
          rewrite (proj2 (Nat.ltb_lt _ _)) by lia. cbn [andb]. rewrite Q. f_equal. f_equal. replace (left + n_i s - left) with (n_i s) by lia. exact Q.
        - apply shifted_out. lia. }
      assert (WA : forall a r, r < M -> in_basis hasB a = true -> m3 a (left + pf (n_i s)) (k + r) = mem a (left + pf (n_i s)) (k + r)).
      { intros a r Hr Hb. rewrite M3. pose proof (pf_ge _ Hi). destruct (Nat.eq_dec (pf (n_i s)) (n_i s)) as [Q|Q].
        - unfold shifted. rewrite in_rows_at by auto. rewrite Hb. rewrite (proj2 (Nat.leb_le _ _)) by lia.
          rewrite (proj2 (Nat.ltb_lt _ _)) by lia. cbn [andb]. rewrite Q. f_equal. f_equal. replace (left + n_i s - left) with (n_i s) by lia. exact Q.
        - apply shifted_out. lia. }
      assert (RR : exists s', match (if hasB then Some (2, left) else None), (if hasB then Some (2, rs) else None) with
        | Some _, None => None
        | _, _ => Some (Inn m3 (put_col (n_X s) (n_id s) (rows_of m3 (col (0, left) (pf (n_i s))) k))
             (match (if hasB then Some (2, left) else None) with
              | Some b => put_col (n_BX s) (n_id s) (rows_of m3 (col b (pf (n_i s))) k) | None => n_BX s end)
             (put_col (n_R s) (n_id s) (fun r => ksub o (rows_of m3 (col (1, left) (pf (n_i s))) k r)
                (kmul o (vals (left + pf (n_i s)))
                  (rows_of m3 (col (match (if hasB then Some (2, left) else None) with Some b => b | None => (0, left) end) (pf (n_i s))) k r))))
             (S (n_i s)) (S (n_id s)) (n_io s)) end = Some s' /\
        s' = Inn m3 (put_col (n_X s) (n_id s) (rows_of m3 (0, left + pf (n_i s)) k))
             (if hasB then put_col (n_BX s) (n_id s) (rows_of m3 (2, left + pf (n_i s)) k) else n_BX s)
             (put_col (n_R s) (n_id s) (fun r => ksub o (rows_of m3 (1, left + pf (n_i s)) k r)
                (kmul o (vals (left + pf (n_i s))) (rows_of m3 (mass hasB, left + pf (n_i s)) k r))))
             (S (n_i s)) (S (n_id s)) (n_io s)).
      { eexists. split; [|reflexivity]. unfold mass. clearbody m3. destruct hasB; reflexivity. }
      destruct RR as (s' & R1 & R2). exists s'. split; [exact R1|]. rewrite R2. cbn [n_mem n_X n_BX n_R n_i n_id n_io].
      split; [|split; [reflexivity|lia]].
      constructor; cbn [n_mem n_X n_BX n_R n_i n_id n_io]; auto.
      * intros id r H1 H2 H3. destruct (Nat.eq_dec id (n_id s)) as [->|N].
        -- rewrite put_same. unfold rows_of. cbn [Datatypes.fst Datatypes.snd]. apply WF; auto.
        -- rewrite put_other by auto. apply OX; lia.
      * intros id r H1 H2 H3. destruct (Nat.eq_dec id (n_id s)) as [->|N].
        -- rewrite put_same. unfold rows_of. cbn [Datatypes.fst Datatypes.snd]. rewrite !WA; auto.
           ++ unfold wanted. rewrite EE. rewrite (proj2 (Nat.ltb_ge (left + n_i s) left)) by lia.
              cbn [Nat.eqb]. replace (left + n_i s - left) with (n_i s) by lia. reflexivity.
           ++ unfold mass. destruct hasB; reflexivity.
        -- rewrite put_other by auto. apply OR; lia.
      * intros HB id r H1 H2 H3. rewrite HB. destruct (Nat.eq_dec id (n_id s)) as [->|N].
        -- rewrite put_same. unfold rows_of. cbn [Datatypes.fst Datatypes.snd]. apply WF; auto. now rewrite HB.
        -- rewrite put_other by auto. apply OB; auto; lia.
      * intros _. split; [lia|]. exact M1.
  - (* past the block *)
    cbn [andb bind]. destruct (Nat.leb_spec nd (n_id s)); [|lia]. cbn [orb].
    assert (Hi : n_i s < failed) by lia. rewrite get_pf by auto. cbn [bind]. cbv zeta.
    eexists; split; [reflexivity|]. cbn [n_mem n_X n_BX n_R n_i n_id n_io]. split; [|split; [reflexivity|lia]].
    constructor; cbn [n_mem n_X n_BX n_R n_i n_id n_io]; auto; try lia.
    + intros; apply OX; lia.
    + intros; apply OR; lia.
    + intros; apply OB; auto; lia.
Qed.

Lemma columns_ok mem k M : forall fuel s,
  ok mem k M s -> (nd - n_id s) + (failed - n_i s) <= fuel ->
  exists s', columns o fuel g k M s = Some s' /\ ok mem k M s' /\ n_i s' = failed /\ nd <= n_id s'.
Proof.
  induction fuel as [|f IH]; intros s Hs Hf; cbn [columns];
    change (g_n g) with failed; change (g_nd g) with nd.
  - rewrite (proj2 (Nat.ltb_ge _ _)) by lia. rewrite (proj2 (Nat.ltb_ge _ _)) by lia. cbn [orb].
    exists s. split; auto. pose proof (ok_i _ _ _ _ Hs). split; auto. lia.
  - destruct (Nat.ltb_spec (n_i s) failed) as [A|A]; [|destruct (Nat.ltb_spec (n_id s) nd) as [B|B]]; cbn [orb].
    3: { exists s. split; auto. pose proof (ok_i _ _ _ _ Hs). split; auto. lia. }
    all: destruct (body_ok mem k M s Hs ltac:(lia)) as (s' & E & O' & _ & D); rewrite E; cbn [bind]; apply IH; auto; lia.
Qed.

(** What the memory holds after the moves. *)
Definition merged_mem (mem : @memory K) (a c r : nat) : K :=
  if in_basis hasB a then
    if (left <=? c) && (c <? left + failed) then mem a (left + pf (c - left)) r
    else if (left + failed <=? c) && (c <? left + failed + nd) then wanted mem a (c - (left + failed)) r
    else mem a c r
  else mem a c r.

Lemma flush_at (b : @buffer K) (d : ptr) n k M (mem : @memory K) a c r :
  flush b d n k M mem a c r = if in_cols d n a c && in_rows k M r then b (c - Datatypes.snd d) (r - k) else mem a c r.
Proof. reflexivity. Qed.

Lemma piece_ok mem k M :
  exists mem', piece_of o g k M mem = Some mem' /\
    forall a c r, mem' a c r = if in_rows k M r then merged_mem mem a c r else mem a c r.
Proof.
  unfold piece_of. cbv zeta.
  assert (O0 : ok mem k M (Inn mem (fun _ _ => k0 o) (fun _ _ => k0 o) (fun _ _ => k0 o) 0 0 0)).
  { constructor; cbn [n_mem n_X n_BX n_R n_i n_id n_io]; try lia.
    - intros. symmetry. apply shifted_out. lia.
    - intros _. split; [lia|]. exact Hm. }
  change (g_n g) with failed. change (g_nd g) with nd.
  destruct (columns_ok mem k M (failed + nd) _ O0) as (s & E & [Om OX OR OB Oi Ol] & E1 & E2); [cbn [n_i n_id]; lia|].
  rewrite E. cbn [bind]. rewrite (proj2 (Nat.leb_le _ _) E2).
  eexists; split; [reflexivity|]. intros a c r.
  change (g_Bxd g) with (if hasB then @Some ptr (2, left + failed) else None).
  change (g_xd g) with (0, left + failed). change (g_rd g) with (1, left + failed).
  assert (MM : n_mem s a c r = if in_rows k M r then
      (if in_basis hasB a && (left <=? c) && (c <? left + failed) then mem a (left + pf (c - left)) r else mem a c r)
      else mem a c r).
  { rewrite Om. unfold shifted. rewrite E1. destruct (in_rows k M r); rewrite ?andb_true_r, ?andb_false_r; reflexivity. }
  assert (FL : (match (if hasB then @Some ptr (2, left + failed) else None) with
     | Some b => flush (n_BX s) b nd k M (flush (n_X s) (0, left + failed) nd k M (n_mem s))
     | None => flush (n_X s) (0, left + failed) nd k M (n_mem s) end) a c r
    = if hasB && in_cols (2, left + failed) nd a c && in_rows k M r then n_BX s (c - (left + failed)) (r - k)
      else if in_cols (0, left + failed) nd a c && in_rows k M r then n_X s (c - (left + failed)) (r - k)
      else n_mem s a c r).
  { destruct hasB; reflexivity. }
  rewrite (flush_at (n_R s)), FL, MM. clear FL MM E Om.
  unfold merged_mem, in_cols. cbn [Datatypes.fst Datatypes.snd].
  destruct (in_rows k M r) eqn:IR; rewrite ?andb_false_r; auto. rewrite ?andb_true_r.
  assert (RK : exists r', r = k + r' /\ r' < M).
  { unfold in_rows in IR. apply andb_true_iff in IR. destruct IR as [A B]. apply Nat.leb_le in A. apply Nat.ltb_lt in B.
    exists (r - k). lia. }
  destruct RK as (r' & -> & Hr'). replace (k + r' - k) with r' by lia.
  rewrite <- !andb_assoc.
  destruct (Nat.leb_spec (left + failed) c) as [C1|C1]; cbn [andb]; rewrite ?andb_false_r; cbn [andb].
  - rewrite (proj2 (Nat.leb_le left c)) by lia. rewrite (proj2 (Nat.ltb_ge c (left + failed))) by lia. cbn [andb].
    rewrite ?andb_false_r.
    destruct (Nat.ltb_spec c (left + failed + nd)) as [C2|C2]; rewrite ?andb_false_r, ?andb_true_r; cbn [andb].
    2: destruct (in_basis hasB a); reflexivity.
    unfold in_basis. destruct (Nat.eqb_spec a 1) as [->|N1].
    + cbn [Nat.eqb orb]. apply OR; lia.
    + destruct (Nat.eqb_spec a 2) as [->|N2].
      * destruct hasB; cbn [andb orb Nat.eqb]; auto. apply OB; auto; lia.
      * rewrite ?andb_false_r. destruct (Nat.eqb_spec a 0) as [->|N0]; cbn [orb]; auto. apply OX; lia.
  - destruct (in_basis hasB a), (left <=? c), (c <? left + failed); reflexivity.
Qed.

Lemma pieces_ok m mem : forall fuel k M cur,
  (forall a c r, cur a c r = if r <? k then merged_mem mem a c r else mem a c r) ->
  m - k <= fuel -> (k < m -> 0 < M /\ k + M <= m) -> k <= m ->
  exists mem', row_pieces o fuel g m k M cur = Some mem' /\
    forall a c r, mem' a c r = if r <? m then merged_mem mem a c r else mem a c r.
Proof.
  induction fuel as [|f IH]; intros k M cur Hc Hf HM Hk; cbn [row_pieces].
  - rewrite (proj2 (Nat.ltb_ge k m)) by lia. exists cur. split; auto. replace m with k by lia. exact Hc.
  - destruct (Nat.ltb_spec k m) as [L|L].
    + destruct (piece_ok cur k M) as (c1 & E & P). rewrite E. cbn [bind]. apply IH; try lia.
      intros a c r. rewrite P.
      assert (LOC : k <= r -> merged_mem cur a c r = merged_mem mem a c r).
      { intros Hr. assert (Q : forall a c, cur a c r = mem a c r).
        { intros. rewrite Hc. now rewrite (proj2 (Nat.ltb_ge r k)). }
        unfold merged_mem, wanted. rewrite !Q. reflexivity. }
      unfold in_rows. destruct (Nat.leb_spec k r) as [A|A]; cbn [andb].
      * destruct (Nat.ltb_spec r (k + M)); [auto|]. rewrite Hc. now rewrite (proj2 (Nat.ltb_ge r k)).
      * rewrite Hc. rewrite (proj2 (Nat.ltb_lt r k)) by lia. now rewrite (proj2 (Nat.ltb_lt r (k + M))) by lia.
    + exists cur. split; auto. replace m with k by lia. exact Hc.
Qed.

Lemma compute_ok m mem : 0 < pbs ->
  exists mem', compute_residual_columns o pbs g m mem = Some mem' /\
    forall a c r, mem' a c r = if r <? m then merged_mem mem a c r else mem a c r.
Proof.
  intros Hp. unfold compute_residual_columns. change (g_n g) with failed.
  destruct (Nat.eqb_spec failed 0) as [F0|F0].
  - cbv zeta. change (g_no g) with sb. change (g_nd g) with nd. rewrite (Nat.min_r sb nd) by lia.
    change (g_Bxd g) with (if hasB then @Some ptr (2, left + failed) else None).
    change (g_Bxo g) with (if hasB then Some (2, rs) else None).
    change (g_xd g) with (0, left + failed). change (g_rd g) with (1, left + failed).
    change (g_xo g) with (0, rs). change (g_ro g) with (1, rs).
    assert (W : forall a id r, id < nd -> wanted mem a id r = mem a (rs + id) r).
    { intros a id r Hi. unfold wanted.
      assert (Q : nth id perm 0 = id).
      { assert (QQ : forall l i j i' j', merged left i j i' j' l -> j' = j -> forall id, id < length l -> nth id l 0 = i + id).
        { induction 1; intros E' id' L'; cbn [length nth] in *; try lia.
          - destruct id' as [|id']; [lia|]. rewrite IHmerged; lia.
          - pose proof (merged_le _ _ _ _ _ _ H). lia. }
        rewrite (QQ _ _ _ _ _ Hm F0) by (pose proof nd_perm; lia). lia. }
      rewrite Q. now rewrite (proj2 (Nat.ltb_lt id left)) by lia. }
    exists (cpn (1, rs) (1, left + failed) nd 0 m
             (if hasB then cpn (2, rs) (2, left + failed) nd 0 m (cpn (0, rs) (0, left + failed) nd 0 m mem)
              else cpn (0, rs) (0, left + failed) nd 0 m mem)).
    split; [destruct hasB; reflexivity|].
    intros a c r. unfold merged_mem. rewrite F0 in *. rewrite Nat.add_0_r.
    assert (IR : in_rows 0 m r = (r <? m)) by reflexivity.
    replace ((left <=? c) && (c <? left)) with false
      by (destruct (Nat.leb_spec left c), (Nat.ltb_spec c left); cbn [andb]; auto; lia).
    destruct hasB; unfold cpn, in_cols, in_basis; cbn [Datatypes.fst Datatypes.snd]; rewrite ?IR;
    destruct (Nat.leb_spec left c), (Nat.ltb_spec c (left + nd)), (Nat.ltb_spec r m),
      (Nat.eqb_spec a 0) as [A0|A0], (Nat.eqb_spec a 1) as [A1|A1], (Nat.eqb_spec a 2) as [A2|A2];
      cbn [andb orb Nat.eqb]; try (exfalso; lia); rewrite ?W by lia; try (subst a); auto; try reflexivity.
  - apply pieces_ok; try lia.
    intros. rewrite (proj2 (Nat.ltb_ge r 0)) by lia. reflexivity.
Qed.
End Columns.
