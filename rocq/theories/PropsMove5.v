(** C57: a restart with locking from the coefficients to the new basis, on any
    number of processes; cases; the exception of device builds. *)
From Coq Require Import List Arith Bool Lia ZArith QArith Qcanon.
From Verif Require Import Base Values ProjModel SpecProj MatAlg PropsProj PropsQmr4 RestartModel ScatterProofs RestartProofs RestartProofs2
  VwxrModel SpecVwxr PropsVwxr PropsVwxr2 PropsVwxr3 MoveModel SpecMove PropsMove PropsMove2 PropsMove3 PropsMove4.
Import ListNotations.
Local Open Scope nat_scope.

(** Linear in the second argument. *)
Definition linear_form {K} (o : scal K) (f : @vect K -> @vect K -> K) : Prop :=
  forall n x (y : nat -> @vect K) (c : nat -> K),
    f x (fun p r => sum o n (fun l => kmul o (y l p r) (c l))) = sum o n (fun l => kmul o (f x (y l)) (c l)).

Lemma inner_linear {K} (o : scal K) (L : laws o) np mV n (x : @vect K) (y : nat -> @vect K) (c : nat -> K) :
  SpecVwxr.inner o np mV x (fun p r => sum o n (fun l => kmul o (y l p r) (c l)))
  = sum o n (fun l => kmul o (SpecVwxr.inner o np mV x (y l)) (c l)).
Proof.
  unfold SpecVwxr.inner.
  transitivity (sum o np (fun p => sum o n (fun l => kmul o (sum o (mV p) (fun r => kmul o (kconj o (x p r)) (y l p r))) (c l)))).
  - apply sum_ext. intros p _.
    transitivity (sum o (mV p) (fun r => sum o n (fun l => kmul o (kmul o (kconj o (x p r)) (y l p r)) (c l)))).
    + apply sum_ext. intros r _. rewrite <- (sum_mull o L). apply sum_ext. intros l _.
      apply (Rmul_assoc (F_R (l_field o L))).
    + rewrite (sum_swap o L). apply sum_ext. intros l _. apply (sum_mulr o L).
  - rewrite (sum_swap o L). apply sum_ext. intros l _. apply (sum_mulr o L).
Qed.

Theorem C57_restart : forall {K} (o : scal K), laws o -> forall cplx pbs imax sq (flo : K -> K)
    hasB hasBe basisSize idx npr fl0 mB nE nc mbs nlk nl room (rp hp : list nat) (vals : nat -> K)
    (fA fB : @vect K -> @vect K -> K) (kG kH : bool) (g : nat -> nat -> K) np (m : nat -> nat)
    (mem : nat -> nat -> nat -> nat -> K) (h : nat -> nat -> K),
  2 <= pbs -> 1 <= np -> local_form np m fA -> local_form np m fB -> linear_form o fA -> linear_form o fB ->
  let fl := settle room fl0 in
  let packed := length fl0 in
  let left := idx + npr in
  let rs := left + packed in
  let failed := length (failed_first fl 0) in
  let passed := length (passed_next fl 0) in
  let bmax := block_max idx mB nE nc in
  let sb := block_room bmax mbs idx npr nc nlk in
  let nd := block_room bmax mbs rs npr nc nlk in
  let from := came_from left (failed_first fl 0) in
  let V p := rotated o (mem p) (0, 0) basisSize h in
  let W p := rotated o (mem p) (1, 0) basisSize h in
  let BV p := rotated o (mem p) (mass hasB, 0) basisSize h in
  let R j p r := ksub o (W p j r) (kmul o (vals j) (BV p j r)) in
  let norm j := let n := sq (SpecVwxr.inner o np m (R j) (R j)) in if j <? left then n else flo n in
  2 <= rs -> rs <= length rp -> left + failed <= length hp ->
  (forall x j, j < basisSize -> fA x (fun p r => mem p 0 j r) = SpecVwxr.inner o np m x (fun p r => mem p 1 j r)) ->
  (forall x j, j < basisSize -> fB x (fun p r => mem p 0 j r) = SpecVwxr.inner o np m x (fun p r => mem p (mass hasB) j r)) ->
  (forall i j, i <= j -> j < nl + basisSize -> g i j = fB (joint nl mem i) (joint nl mem j)) ->
  exists res,
    update_VWXR o cplx pbs imax sq np
      (restart_job hasB hasBe (if kG then Some rs else None) (if kH then Some rs else None) basisSize rs sb left packed nl h vals)
      m mem = Some res /\
    forall b rn, sb <= length b ->
    (forall i, i < sb -> nth_error b i = Some (r_R res i)) ->
    (forall j, j < packed -> nth_error rn j = Some (flo (r_r res j))) ->
    exists hp' b' vals' mem' G' H',
    (forall p, p < np ->
       finish_lock o pbs hasB (hasB && hasBe) idx npr sb nd nl room fl0 rp hp b rn vals
         (if kG then Some (aux_VtBV o nl rs basisSize h (r_G res) g) else None)
         (if kH then Some (r_H res) else None) (m p) (r_mem res p)
       = Some (Fin _ hp' b' vals' (mem' p) G' H' passed)) /\
    (forall e, e < left + failed -> vals' e = vals (from e) /\
       forall p r, p < np -> r < m p -> mem' p 0 e r = V p (from e) r /\ mem' p 1 e r = W p (from e) r /\
         (hasB = true -> mem' p 2 e r = BV p (from e) r)) /\
    (forall k, k < nd -> exists e, nth_error hp' k = Some e /\ (e < idx \/ left <= e < left + failed) /\
       nth_error b' k = Some (norm (from e)) /\
       forall p r, p < np -> r < m p ->
         mem' p 0 (left + failed + k) r = V p (from e) r /\
         mem' p 1 (left + failed + k) r = R (from e) p r /\
         (hasB = true -> mem' p 2 (left + failed + k) r = BV p (from e) r)) /\
    (forall p i r, p < np -> i < passed -> r < m p ->
       mem' p 3 (nl + i) r = V p (left + nth i (passed_next fl 0) 0) r) /\
    (forall p c r, p < np -> c < nl -> mem' p 3 c r = mem p 3 c r) /\
    (kG = true -> exists g', G' = Some g' /\
       forall i j, i < nl + passed + left + failed -> j < nl + passed + left + failed -> i <= j ->
         g' i j = fB (joint (nl + passed) mem' i) (joint (nl + passed) mem' j)) /\
    (kH = true -> exists g', H' = Some g' /\
       forall i j, i < left + failed -> j < left + failed -> g' i j = fA (basis_col mem' i) (basis_col mem' j)).
Proof.
  intros K o L cplx pbs imax sq flo hasB hasBe basisSize idx npr fl0 mB nE nc mbs nlk nl room rp hp vals fA fB kG kH g np m mem h
    Hp Hn LA LB LiA LiB fl packed left rs failed passed bmax sb nd from V W BV R norm Hrs Lrp Lh HfA HfB Hg.
  destruct (C56_restart o L cplx pbs imax sq Hp hasB hasBe (if kG then Some rs else None) (if kH then Some rs else None)
    basisSize rs sb left packed nl h vals np m mem Hrs Hn) as (res & E & Hm & HR & Hr & HH & HG).
  exists res. split; [exact E|]. intros b rn Lb Hb Hrn. clear E.
  assert (Hsb : sb <= idx) by (destruct (sizes idx mB nE nc mbs npr packed nlk); auto).
  assert (Hir : idx <= rs) by (unfold rs, left; lia).
  assert (EM : (mass hasB, 0) = (if hasB then 2 else 0, 0)) by (destruct hasB; reflexivity).
  assert (FV : forall f a, (forall x j, j < basisSize -> f x (fun p r => mem p 0 j r) = SpecVwxr.inner o np m x (fun p r => mem p a j r)) ->
     linear_form o f -> forall x j, f x (fun p => V p j) = SpecVwxr.inner o np m x (fun p => rotated o (mem p) (a, 0) basisSize h j)).
  { intros f a Hf Li x j. unfold V, rotated. cbn [Datatypes.fst Datatypes.snd Nat.add].
    rewrite (Li basisSize x (fun l p r => mem p 0 l r) (fun l => h l j)).
    rewrite (inner_linear o L np m basisSize x (fun l p r => mem p a l r) (fun l => h l j)).
    apply sum_ext. intros l Hl. now rewrite Hf. }
  assert (MV : forall p j r, p < np -> j < rs -> r < m p -> r_mem res p 0 j r = V p j r) by (intros; apply Hm; auto).
  assert (MM : forall p j r, p < np -> j < rs -> r < m p -> r_mem res p (mass hasB) j r = BV p j r).
  { intros p j r Hpn Hj Hr'. unfold BV. unfold mass. destruct hasB; [|apply Hm; auto]. apply Hm; auto. }
  destruct (C57_locking o pbs hasB (hasB && hasBe) idx npr fl0 mB nE nc mbs nlk nl room rp hp b rn norm vals fA fB
    (if kG then Some (aux_VtBV o nl rs basisSize h (r_G res) g) else None)
    (if kH then Some (r_H res) else None) np m (r_mem res)) as (hp' & b' & vals' & mem' & G' & H' & F & _ & _ & S & Bk & Ev & Old & G1 & H1 & G2 & H2);
    auto; try lia.
  - (* candidates *)
    intros p i Hpn Hi r Hr'. destruct (Hm p Hpn) as (A0 & A1 & A2 & A3 & A4 & A5 & _).
    change (i < sb) in Hi. assert (Hi' : i < rs) by lia.
    rewrite (A0 i r Hi' Hr'), (A1 i r Hi' Hr'), (MM p i r Hpn Hi' Hr').
    split; [apply (A3 i r Hi Hr')|]. split; [|intros HB; rewrite (A2 i r HB Hi' Hr'); apply (A5 i r HB Hi Hr')].
    unfold BV. rewrite EM. apply (A4 i r Hi Hr').
  - intros p j r Hpn Hj Hr'. destruct (Hm p Hpn) as (A0 & A1 & A2 & A3 & A4 & A5 & A6 & A7 & A8).
    assert (Hj' : left + j < rs) by (unfold rs; fold packed in Hj; lia).
    split; [exact (eq_trans (A6 j r Hj Hr') (eq_sym (A0 _ r Hj' Hr')))|].
    intros HB. apply andb_prop in HB. destruct HB as [HB HBe]. exact (eq_trans (A7 j r HB HBe Hj Hr') (eq_sym (A2 _ r HB Hj' Hr'))).
  - intros i Hi. rewrite (Hb i Hi), (HR i Hi). unfold norm.
    rewrite (proj2 (Nat.ltb_lt i left)) by (change (i < sb) in Hi; unfold left; lia). reflexivity.
  - intros j Hj. change (j < packed) in Hj. rewrite (Hrn j Hj), Hr by (unfold rs; lia). transitivity (Some (norm (left + j))); [|reflexivity]. unfold norm.
    rewrite (proj2 (Nat.ltb_ge (left + j) left)) by lia. reflexivity.
  - (* VtBV *)
    destruct kG; [|discriminate]. intros ? [= <-] i j Hi Hj Hij. change (i < nl + rs) in Hi. change (j < nl + rs) in Hj.
    assert (JO : forall i, i < nl -> forall p r, p < np -> r < m p -> joint nl (r_mem res) i p r = joint nl mem i p r).
    { intros i' Hi' p r Hpn Hr'. unfold joint. rewrite (proj2 (Nat.ltb_lt i' nl)) by lia.
      destruct (Hm p Hpn) as (_ & _ & _ & _ & _ & _ & _ & _ & A8). apply A8. lia. }
    assert (JN : forall j, nl <= j < nl + rs -> forall p r, p < np -> r < m p -> joint nl (r_mem res) j p r = V p (j - nl) r).
    { intros j' Hj' p r Hpn Hr'. unfold joint. rewrite (proj2 (Nat.ltb_ge j' nl)) by lia. apply MV; auto. lia. }
    unfold aux_VtBV. destruct (Nat.lt_ge_cases j nl) as [Q|Q].
    + rewrite (proj2 (Nat.leb_gt nl j)) by lia. cbn [andb]. rewrite Hg by lia. apply LB; intros; symmetry; apply JO; auto; lia.
    + rewrite (proj2 (Nat.leb_le nl j)), (proj2 (Nat.ltb_lt j (nl + rs))) by lia. cbn [andb].
      rewrite (LB _ (joint nl (r_mem res) i) _ (fun p => V p (j - nl))) by (intros; auto; apply JN; auto; lia).
      destruct (Nat.ltb_spec i nl) as [A|A].
      * rewrite (LB (joint nl (r_mem res) i) (joint nl mem i) _ (fun p => V p (j - nl))) by (intros; auto; apply JO; auto).
        unfold V, rotated. cbn [Datatypes.fst Datatypes.snd Nat.add].
        rewrite (LiB basisSize _ (fun l p r => mem p 0 l r) (fun l => h l (j - nl))).
        apply sum_ext. intros l Hl. rewrite Hg by lia. f_equal. apply LB; auto. intros p r _ _. unfold joint.
        rewrite (proj2 (Nat.ltb_ge (nl + l) nl)) by lia. f_equal. lia.
      * rewrite (proj2 (Nat.ltb_lt i (nl + rs))) by lia.
        rewrite (HG rs) by (auto; lia).
        rewrite (LB (joint nl (r_mem res) i) (fun p => V p (i - nl)) _ (fun p => V p (j - nl))) by (intros; auto; apply JN; auto; lia).
        rewrite (FV fB (mass hasB) HfB LiB). rewrite EM. reflexivity.
  - (* H *)
    destruct kH; [|discriminate]. intros ? [= <-] i j Hi Hj. change (i < rs) in Hi. change (j < rs) in Hj.
    rewrite (HH rs) by auto. rewrite (LA (basis_col (r_mem res) i) (fun p => V p i) _ (fun p => V p j))
      by (intros; unfold basis_col; apply MV; auto).
    rewrite (FV fA 1 HfA LiA). reflexivity.
  - exists hp', b', vals', mem', G', H'. split; [exact F|].
    assert (FR : forall e, e < left + failed -> from e < rs).
    { intros e He. destruct (passed_failed fl) as [_ Q]. fold failed in Q.
      assert (Lfl : length fl = packed) by apply settle_length. rewrite Lfl in Q.
      unfold from, came_from. destruct (Nat.ltb_spec e left); [unfold rs; lia|].
      assert (X : nth (e - left) (failed_first fl 0) 0 < packed).
      { destruct (ifailed_facts fl) as (_ & _ & X & _). rewrite Lfl in X.
        specialize (X (e - left) ltac:(lia)). unfold ifailed in X. rewrite app_nth1 in X by (fold failed; lia). exact X. }
      unfold rs. lia. }
    assert (SS : forall e p r, e < left + failed -> p < np -> r < m p -> mem' p 0 e r = V p (from e) r /\ mem' p 1 e r = W p (from e) r /\
         mem' p (mass hasB) e r = BV p (from e) r /\ (hasB = true -> mem' p 2 e r = BV p (from e) r)).
    { intros e p r He Hpn Hr'. destruct (S e He) as [_ Sp]. specialize (Sp p Hpn). pose proof (FR e He) as Q.
      assert (BM : in_basis hasB (mass hasB) = true) by (unfold mass; destruct hasB; reflexivity).
      split; [rewrite (Sp 0 r Hr' eq_refl); apply MV; auto|]. split; [rewrite (Sp 1 r Hr' eq_refl); apply Hm; auto|].
      assert (X : mem' p (mass hasB) e r = BV p (from e) r) by (rewrite (Sp _ r Hr' BM); apply MM; auto).
      split; [exact X|]. intros HB. rewrite HB in X. exact X. }
    split. { intros e He. destruct (S e He) as [Ve _]. split; [exact Ve|]. intros p r Hpn Hr'.
      destruct (SS e p r He Hpn Hr') as (Q1 & Q2 & _ & Q3). auto. }
    split. { intros k Hk. destruct (Bk k Hk) as (e & He & Re & Ne & Be). exists e. split; [exact He|]. split; [exact Re|].
      split; [exact Ne|]. intros p r Hpn Hr'.
      change (e < idx \/ left <= e < left + failed) in Re. assert (He' : e < left + failed) by (assert (idx <= left) by apply Nat.le_add_r; lia).
      destruct (Be p Hpn r Hr') as (B1 & B2 & B3). destruct (SS e p r He' Hpn Hr') as (Q1 & Q2 & Q3 & Q4).
      destruct (S e He') as [Ve _].
      split; [exact (eq_trans B1 Q1)|]. split; [|intros HB; exact (eq_trans (B3 HB) (Q4 HB))].
      refine (eq_trans B2 _). unfold R. rewrite Q2, Q3. f_equal. f_equal. exact Ve. }
    split. { intros p i r Hpn Hi Hr'. destruct (Ev p i r Hpn Hi Hr') as [X _].
      refine (eq_trans X _). apply MV; auto.
      destruct (ifailed_facts fl) as (_ & _ & Y & _). assert (Lfl : length fl = packed) by apply settle_length. rewrite Lfl in Y.
      destruct (passed_failed fl) as [Z1 Z2]. fold passed failed in Z1, Z2. rewrite Lfl in Z1, Z2.
      rewrite passed_nth. fold failed. change (i < passed) in Hi. specialize (Y (failed + i) ltac:(lia)). unfold rs. lia. }
    split. { intros p c r Hpn Hc. destruct (Old p c r Hpn Hc) as [X _]. refine (eq_trans X _).
      destruct (Hm p Hpn) as (_ & _ & _ & _ & _ & _ & _ & _ & A8). apply A8. lia. }
    split.
    + intros ->. destruct G' as [g'|]; [|destruct G1 as [G1 _]; specialize (G1 eq_refl); discriminate].
      exists g'. split; [reflexivity|]. intros i j Hi Hj Hij. apply G2; auto.
    + intros ->. destruct H' as [g'|]; [|destruct H1 as [H1 _]; specialize (H1 eq_refl); discriminate].
      exists g'. split; [reflexivity|]. intros i j Hi Hj. apply H2; auto.
Qed.
