(** C57: a whole restart with locking after the update of the vectors. *)
From Coq Require Import List Arith Bool Lia.
From Verif Require Import Base Values ProjModel MatAlg RestartModel ScatterProofs RestartProofs RestartProofs2
  VwxrModel MoveModel SpecMove PropsMove PropsMove2 PropsMove3.
Import ListNotations.

Lemma passed_failed fl : length (passed_next fl 0) = length fl - length (failed_first fl 0) /\
  length (failed_first fl 0) <= length fl.
Proof.
  assert (L : length (ifailed fl) = length fl) by apply is_perm_length, ifailed_perm.
  unfold ifailed in L. rewrite app_length in L. lia.
Qed.
Lemma passed_nth fl i : nth i (passed_next fl 0) 0 = nth (length (failed_first fl 0) + i) (ifailed fl) 0.
Proof. unfold ifailed. rewrite app_nth2 by lia. f_equal. lia. Qed.

Lemma move_H_ok {K} left fl (H : @host K) : let ifl := ifailed fl in let failed := length (failed_first fl 0) in
  exists H', move_H left failed (length fl) ifl H = Some H' /\
    forall i j, i < left + failed -> j < left + failed -> H' i j = H (came_from left ifl i) (came_from left ifl j).
Proof.
  intros ifl failed. destruct (ifailed_facts fl) as (F1 & F2 & F3 & F4 & F5). fold failed ifl in F1, F2, F3, F4, F5.
  unfold move_H.
  destruct (copy_columns_in_ok ifl 0 (left + length fl) left failed H ltac:(lia) F5) as (H1 & -> & P1). cbn [bind].
  destruct (copy_rows_in_ok ifl left failed 0 (left + failed) H1 ltac:(lia) F5) as (H2 & E2 & P2).
  exists H2. split; [exact E2|]. intros i j Hi Hj. rewrite P2.
  rewrite (proj2 (Nat.leb_le 0 j)), (proj2 (Nat.ltb_lt j (0 + (left + failed)))) by lia. rewrite !andb_true_r.
  assert (C1 : forall r, r < left + length fl -> H1 r j = H r (came_from left ifl j)).
  { intros r Hr. rewrite P1. unfold came_from.
    rewrite (proj2 (Nat.leb_le 0 r)), (proj2 (Nat.ltb_lt r (0 + (left + length fl)))) by lia. rewrite !andb_true_r.
    destruct (Nat.ltb_spec j left) as [Q|Q].
    - rewrite (proj2 (Nat.leb_gt left j)) by lia. reflexivity.
    - rewrite (proj2 (Nat.leb_le left j)), (proj2 (Nat.ltb_lt j (left + failed))) by lia. reflexivity. }
  unfold came_from at 1. destruct (Nat.ltb_spec i left) as [Q|Q].
  - rewrite (proj2 (Nat.leb_gt left i)) by lia. cbn [andb]. apply C1. lia.
  - rewrite (proj2 (Nat.leb_le left i)), (proj2 (Nat.ltb_lt i (left + failed))) by lia. cbn [andb]. apply C1.
    pose proof (F3 (i - left) ltac:(lia)). lia.
Qed.

(** After a restart with locking everything kept about the pairs agrees.  Before,
    the first [sb] candidates stand after the basis with their residuals, the pairs
    to be locked were copied after the [nl] locked vectors, [N e] is the norm of the
    pair at column [e], VtBV and H are the matrices of the forms [fB] and [fA] on
    the columns (all this is what C56_restart gives).  Afterwards, on every process:
    the basis is the restarted pairs followed by those that failed; the pairs that
    passed, and only they, follow the locked vectors; the block holds the vectors,
    residuals and norms of the pairs hVecsPerm puts first; and VtBV and H are the
    matrices of the forms on the new columns. *)
Theorem C57_locking : forall {K R} (o : scal K) pbs hasB hasBe idx npr fl0 mB nE nc mbs nlk nl room
    (rp h : list nat) (b rn : list R) (N : nat -> R) (vals : nat -> K) (fA fB : vect -> vect -> K)
    (G H : option (nat -> nat -> K)) np (m : nat -> nat) (mem : nat -> nat -> nat -> nat -> K),
  0 < pbs -> 1 <= np -> local_form np m fA -> local_form np m fB ->
  let fl := settle room fl0 in
  let packed := length fl0 in
  let left := idx + npr in
  let rs := left + packed in
  let failed := length (failed_first fl 0) in
  let passed := length (passed_next fl 0) in
  let bmax := block_max idx mB nE nc in
  let sb := block_room bmax mbs idx npr nc nlk in
  let nd := block_room bmax mbs rs npr nc nlk in
  let from := came_from left (failed_first fl 0) in
  rs <= length rp -> left + failed <= length h -> sb <= length b ->
  (forall p i, p < np -> i < sb -> block_is o hasB (m p) vals (mem p) (rs + i) i) ->
  (forall p j r, p < np -> j < packed -> r < m p -> mem p 3 (nl + j) r = mem p 0 (left + j) r /\
     (hasBe = true -> mem p 4 (nl + j) r = mem p 2 (left + j) r)) ->
  (forall i, i < sb -> nth_error b i = Some (N i)) ->
  (forall j, j < packed -> nth_error rn j = Some (N (left + j))) ->
  (forall g, G = Some g -> forall i j, i < nl + rs -> j < nl + rs -> i <= j \/ nl <= j ->
     g i j = fB (joint nl mem i) (joint nl mem j)) ->
  (forall g, H = Some g -> forall i j, i < rs -> j < rs -> g i j = fA (basis_col mem i) (basis_col mem j)) ->
  exists h' b' vals' mem' G' H',
    (forall p, p < np ->
       finish_lock o pbs hasB hasBe idx npr sb nd nl room fl0 rp h b rn vals G H (m p) (mem p)
       = Some (Fin _ h' b' vals' (mem' p) G' H' passed)) /\
    failed + passed = packed /\ passed <= room /\
    (forall e, e < left + failed -> vals' e = vals (from e) /\
       forall p, p < np -> same_pair hasB (m p) (mem' p) e (mem p) (from e)) /\
    (forall k, k < nd -> exists e, nth_error h' k = Some e /\ (e < idx \/ left <= e < left + failed) /\
       nth_error b' k = Some (N (from e)) /\
       forall p, p < np -> block_is o hasB (m p) vals' (mem' p) (left + failed + k) e) /\
    (forall p i r, p < np -> i < passed -> r < m p ->
       mem' p 3 (nl + i) r = mem p 0 (left + nth i (passed_next fl 0) 0) r /\
       (hasBe = true -> mem' p 4 (nl + i) r = mem p 2 (left + nth i (passed_next fl 0) 0) r)) /\
    (forall p c r, p < np -> c < nl -> mem' p 3 c r = mem p 3 c r /\ mem' p 4 c r = mem p 4 c r) /\
    (G' = None <-> G = None) /\ (H' = None <-> H = None) /\
    (forall g', G' = Some g' -> forall i j, i < nl + passed + left + failed -> j < nl + passed + left + failed ->
       i <= j \/ nl <= j -> g' i j = fB (joint (nl + passed) mem' i) (joint (nl + passed) mem' j)) /\
    (forall g', H' = Some g' -> forall i j, i < left + failed -> j < left + failed ->
       g' i j = fA (basis_col mem' i) (basis_col mem' j)).
Proof.
  intros K R o pbs hasB hasBe idx npr fl0 mB nE nc mbs nlk nl room rp h b rn N vals fA fB G H np m mem Hp Hnp LA LB
    fl packed left rs failed passed bmax sb nd from Lrp Lh Lb Pre PreE Nb Nr HG HH.
  assert (Lf : length fl = packed) by apply settle_length.
  destruct (passed_failed fl) as [PF1 PF2]. fold passed failed in PF1, PF2. rewrite Lf in PF1, PF2.
  assert (Rm : passed <= room) by apply settle_room.
  destruct (ifailed_facts fl) as (F1 & F2 & F3 & F4 & F5). fold failed in F1, F3, F4, F5. rewrite Lf in *.
  assert (CF : forall e, e < left + failed -> came_from left (ifailed fl) e = from e).
  { intros e He. unfold from, came_from. destruct (Nat.ltb_spec e left); auto. f_equal. unfold ifailed.
    rewrite app_nth1; auto. fold failed. lia. }
  (* every process *)
  assert (ONE : forall p, p < np -> exists h' b' mem1 vals',
    merge_block rp (ifailed fl) idx npr failed nd sb rn h b = Some (h', b') /\
    compute_residual_columns o pbs (merge_args hasB left rs failed sb nd (ifailed fl) h' vals) (m p) (mem p) = Some mem1 /\
    move_vals 0 failed (ifailed fl) left vals = Some vals' /\
    (forall e, e < left + failed ->
       same_pair hasB (m p) mem1 e (mem p) (came_from left (ifailed fl) e) /\ vals' e = vals (came_from left (ifailed fl) e)) /\
    (forall k, k < nd -> exists e, nth_error h' k = Some e /\ (e < idx \/ left <= e < left + failed) /\
       block_is o hasB (m p) vals' mem1 (left + failed + k) e /\
       nth_error b' k = Some (N (came_from left (ifailed fl) e))) /\
    (forall a c r, in_basis hasB a = false \/ m p <= r \/ left + failed + nd <= c -> mem1 a c r = mem p a c r) /\
    (forall q, nd <= q -> nth_error b' q = nth_error b q) /\ (forall c, left + failed <= c -> vals' c = vals c)).
  { intros p Hpn. pose proof (C57_block o pbs hasB idx npr fl mB nE nc mbs nlk rp h b rn N vals (m p) (mem p) Hp) as T.
    cbv zeta in T. fold left failed in T. rewrite Lf in T. fold rs bmax sb nd in T.
    apply T; auto. }
  destruct (ONE 0 ltac:(lia)) as (h' & b' & m0 & vals' & EM & _ & EV & V0 & K0 & _ & _ & _).
  set (mem1 := fun p => match compute_residual_columns o pbs (merge_args hasB left rs failed sb nd (ifailed fl) h' vals) (m p) (mem p)
                        with Some x => x | None => mem p end).
  assert (ALL : forall p, p < np ->
    compute_residual_columns o pbs (merge_args hasB left rs failed sb nd (ifailed fl) h' vals) (m p) (mem p) = Some (mem1 p) /\
    (forall e, e < left + failed -> same_pair hasB (m p) (mem1 p) e (mem p) (from e)) /\
    (forall k e, k < nd -> nth_error h' k = Some e -> block_is o hasB (m p) vals' (mem1 p) (left + failed + k) e) /\
    (forall a c r, in_basis hasB a = false -> mem1 p a c r = mem p a c r)).
  { intros p Hpn. destruct (ONE p Hpn) as (h2 & b2 & mp & v2 & EM2 & EC & EV2 & S2 & K2 & O2 & _ & _).
    rewrite EM in EM2. injection EM2 as <- <-. rewrite EV in EV2. injection EV2 as <-.
    unfold mem1. rewrite EC. split; [reflexivity|]. split; [intros e He; rewrite <- CF by auto; apply S2; auto|].
    split; [|intros; apply O2; auto].
    intros k e Hk He. destruct (K2 k Hk) as (e' & He' & _ & B' & _). rewrite He in He'. injection He' as <-. exact B'. }
  set (mem' := fun p => Datatypes.fst (pack_evecs fl hasBe nl room (m p) 0 0 (mem1 p))).
  assert (PK : forall p, pack_evecs fl hasBe nl room (m p) 0 0 (mem1 p) = (mem' p, passed) /\
    (forall i r, i < passed -> r < m p ->
       mem' p 3 (nl + i) r = mem1 p 3 (nl + nth i (passed_next fl 0) 0) r /\
       (hasBe = true -> mem' p 4 (nl + i) r = mem1 p 4 (nl + nth i (passed_next fl 0) 0) r)) /\
    (forall a c r, a <> 3 /\ a <> 4 \/ c < nl -> mem' p a c r = mem1 p a c r)).
  { intros p. destruct (pack_evecs_ok hasBe nl room (m p) fl 0 0 (mem1 p)) as (mp & E & P1 & P2); [lia|exact Rm|].
    unfold mem'. rewrite E. cbn [Datatypes.fst Nat.add]. split; [reflexivity|]. rewrite Nat.add_0_r in P1, P2. split; [exact P1|].
    intros a c r Q. apply P2. intuition lia. }
  assert (NB : in_basis hasB 3 = false /\ in_basis hasB 4 = false) by (destruct hasB; split; reflexivity).
  assert (BA : forall a, in_basis hasB a = true -> a <> 3 /\ a <> 4).
  { intros a Ha. destruct NB as [N3 N4]. split; intros ->; congruence. }
  assert (PB : forall i, i < passed -> nth i (passed_next fl 0) 0 < packed).
  { intros i Hi. rewrite passed_nth. fold failed. apply F3. lia. }
  assert (SP : forall p e, p < np -> e < left + failed -> same_pair hasB (m p) (mem' p) e (mem p) (from e)).
  { intros p e Hpn He a r Hr Ha. destruct (PK p) as (_ & _ & P2). rewrite P2 by (left; auto).
    destruct (ALL p Hpn) as (_ & S & _). apply S; auto. }
  assert (EV' : forall p i r, p < np -> i < passed -> r < m p ->
       mem' p 3 (nl + i) r = mem p 0 (left + nth i (passed_next fl 0) 0) r /\
       (hasBe = true -> mem' p 4 (nl + i) r = mem p 2 (left + nth i (passed_next fl 0) 0) r)).
  { intros p i r Hpn Hi Hr. destruct (PK p) as (_ & P1 & _). destruct (P1 i r Hi Hr) as [Q1 Q2].
    destruct (ALL p Hpn) as (_ & _ & _ & O). destruct (PreE p (nth i (passed_next fl 0) 0) r Hpn (PB i Hi) Hr) as [R1 R2].
    split; [rewrite Q1, O by apply NB; exact R1|]. intros HB. rewrite Q2, O by (auto; apply NB). auto. }
  assert (OLD : forall p c r, p < np -> c < nl -> mem' p 3 c r = mem p 3 c r /\ mem' p 4 c r = mem p 4 c r).
  { intros p c r Hpn Hc. destruct (PK p) as (_ & _ & P2). destruct (ALL p Hpn) as (_ & _ & _ & O).
    rewrite !P2 by auto. rewrite !O by apply NB. auto. }
  (* VtBV *)
  destruct (order_facts fl left) as (O1 & O2 & O3 & O4 & O5). fold failed in O1, O2, O3, O4, O5. rewrite Lf in O1, O2, O3, O4, O5.
  assert (JF : forall i p r, i < nl + passed + left + failed -> p < np -> r < m p ->
    joint (nl + passed) mem' i p r = joint nl mem (joint_from nl (order left failed packed (ifailed fl)) i) p r).
  { intros i p r Hi Hpn Hr. unfold joint, joint_from. destruct (Nat.ltb_spec i nl) as [A|A].
    - rewrite (proj2 (Nat.ltb_lt i (nl + passed))) by lia. rewrite (proj2 (Nat.ltb_lt i nl)) by lia. apply OLD; auto.
    - rewrite (proj2 (Nat.ltb_ge (nl + nth (i - nl) (order left failed packed (ifailed fl)) 0) nl)) by lia.
      replace (nl + nth (i - nl) (order left failed packed (ifailed fl)) 0 - nl) with (nth (i - nl) (order left failed packed (ifailed fl)) 0) by lia.
      destruct (Nat.ltb_spec i (nl + passed)) as [B|B].
      + rewrite O3 by lia. unfold failed at 1. rewrite <- passed_nth. replace i with (nl + (i - nl)) at 1 by lia. apply EV'; auto. lia.
      + destruct (Nat.lt_ge_cases i (nl + passed + left)) as [C|C].
        * replace (i - nl) with (packed - failed + (i - (nl + passed))) by lia. rewrite O4 by lia.
          rewrite (SP p (i - (nl + passed)) Hpn ltac:(lia) 0 r Hr eq_refl). unfold from, came_from.
          now rewrite (proj2 (Nat.ltb_lt (i - (nl + passed)) left)) by lia.
        * replace (i - nl) with (packed - failed + left + (i - (nl + passed) - left)) by lia. rewrite O5 by lia.
          rewrite (SP p (i - (nl + passed)) Hpn ltac:(lia) 0 r Hr eq_refl). rewrite <- CF by lia. unfold came_from.
          now rewrite (proj2 (Nat.ltb_ge (i - (nl + passed)) left)) by lia. }
  assert (EG : exists G', (match G with Some g => g' <- move_VtBV o nl left failed packed (ifailed fl) g ; Some (Some g') | None => Some None end) = Some G' /\
     (G' = None <-> G = None) /\
     (forall g', G' = Some g' -> forall i j, i < nl + passed + left + failed -> j < nl + passed + left + failed ->
       i <= j \/ nl <= j -> g' i j = fB (joint (nl + passed) mem' i) (joint (nl + passed) mem' j))).
  { destruct G as [g|]; [|exists None; split; [reflexivity|]; split; [tauto|discriminate]].
    destruct (move_VtBV_ok o nl left failed packed (ifailed fl) g O1 O2) as (g' & -> & P1 & P2). cbn [bind].
    exists (Some g'). split; [reflexivity|]. split; [split; discriminate|]. intros ? [= <-] i j Hi Hj Hij.
    assert (FE : fB (joint (nl + passed) mem' i) (joint (nl + passed) mem' j)
      = fB (joint nl mem (joint_from nl (order left failed packed (ifailed fl)) i))
           (joint nl mem (joint_from nl (order left failed packed (ifailed fl)) j))).
    { apply LB; intros; apply JF; auto. }
    rewrite FE.
    assert (JB : forall i, i < nl + passed + left + failed -> joint_from nl (order left failed packed (ifailed fl)) i < nl + rs).
    { intros x Hx. unfold joint_from. destruct (Nat.ltb_spec x nl); [lia|].
      assert (IN : In (nth (x - nl) (order left failed packed (ifailed fl)) 0) (order left failed packed (ifailed fl))) by (apply nth_In; lia).
      apply O2 in IN. unfold rs. lia. }
    destruct (Nat.lt_ge_cases j nl) as [Q|Q].
    - rewrite P2 by lia. unfold joint_from. rewrite (proj2 (Nat.ltb_lt i nl)), (proj2 (Nat.ltb_lt j nl)) by lia.
      apply HG; auto; lia.
    - rewrite P1 by lia. apply HG; auto.
      right. unfold joint_from. rewrite (proj2 (Nat.ltb_ge j nl)) by lia. lia. }
  destruct EG as (G' & EG & G1 & G2).
  assert (EH : exists H', (match H with Some g => g' <- move_H left failed packed (ifailed fl) g ; Some (Some g') | None => Some None end) = Some H' /\
     (H' = None <-> H = None) /\
     (forall g', H' = Some g' -> forall i j, i < left + failed -> j < left + failed -> g' i j = fA (basis_col mem' i) (basis_col mem' j))).
  { destruct H as [g|]; [|exists None; split; [reflexivity|]; split; [tauto|discriminate]].
    destruct (move_H_ok left fl g) as (g' & E & P). fold failed in E, P. rewrite Lf in E. rewrite E. cbn [bind].
    exists (Some g'). split; [reflexivity|]. split; [split; discriminate|]. intros ? [= <-] i j Hi Hj.
    rewrite P, !CF by auto.
    assert (FB' : forall e, e < left + failed -> from e < rs).
    { intros e He. rewrite <- CF by auto. unfold came_from. destruct (Nat.ltb_spec e left); [unfold rs; lia|].
      pose proof (F3 (e - left) ltac:(lia)). unfold rs. lia. }
    rewrite (HH g eq_refl) by auto. apply LA; intros p r Hpn Hr; unfold basis_col; symmetry; apply SP; auto. }
  destruct EH as (H' & EH & H1 & H2).
  exists h', b', vals', mem', G', H'.
  split.
  { intros p Hpn. unfold finish_lock. cbv zeta. fold fl. rewrite Lf. fold left failed. rewrite EM. cbn [bind Datatypes.fst Datatypes.snd].
    fold rs. destruct (ALL p Hpn) as (-> & _). cbn [bind]. rewrite EV. cbn [bind].
    match goal with |- bind ?e _ = _ => let X := fresh in assert (X : e = Some G') by exact EG; rewrite X; clear X end. cbn [bind].
    match goal with |- bind ?e _ = _ => let X := fresh in assert (X : e = Some H') by exact EH; rewrite X; clear X end. cbn [bind].
    destruct (PK p) as (-> & _). reflexivity. }
  split; [lia|]. split; [exact Rm|].
  split. { intros e He. split; [|intros; apply SP; auto]. rewrite <- CF by auto. apply V0; auto. }
  split. { intros k Hk. destruct (K0 k Hk) as (e & He & Re & _ & Ne). exists e. split; [exact He|]. split; [exact Re|].
    assert (e < left + failed) by (unfold left in *; lia).
    split; [rewrite <- CF by auto; exact Ne|]. intros p Hpn. destruct (ALL p Hpn) as (_ & _ & B & _).
    intros r Hr. destruct (PK p) as (_ & _ & P2). specialize (B k e Hk He r Hr). destruct B as (B1 & B2 & B3).
    unfold mass in *. rewrite !P2 by (left; destruct hasB; lia). split; [exact B1|]. split; [destruct hasB; exact B2|].
    intros HB. apply B3; auto. }
  split; [exact EV'|]. split; [exact OLD|]. auto.
Qed.
