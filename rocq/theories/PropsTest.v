(** C59: the user's convergence test is given a value, a vector and a norm of one pair. *)
From Coq Require Import List Arith Bool Lia ZArith QArith Qcanon Field.
From Verif Require Import Base Values ProjModel SpecProj MatAlg PropsProj PropsQmr4 ConvModel
  VwxrModel SpecVwxr PropsVwxr PropsVwxr2 PropsVwxr3 SpecMove PropsMove5 TestModel SpecTest.
Import ListNotations.
Local Open Scope nat_scope.

Section Calls.
Context {K : Type} (ro : rops K).
Lemma calls_in k X g lo norms hVals cnt : forall i s, In s (calls ro k X g lo norms hVals cnt i) ->
  exists j, i <= j < i + cnt /\ get norms (j - lo) = Some (sh_norm s) /\ get hVals j = Some (sh_val s) /\
    sh_vec s = (if g then option_map (fun x => shift_ptr x (j - lo)) X else None).
Proof.
  induction cnt as [|c IH]; intros i s; cbn [calls]; [intros []|].
  destruct (get norms (i - lo)) as [n|] eqn:En; [|intros []].
  destruct (get hVals i) as [v|] eqn:Ev; [|intros []].
  intros H. apply in_app_or in H. destruct H as [H|H].
  - destruct (_ || _); [destruct H|]. destruct H as [<-|[]]. exists i. repeat split; auto; lia.
  - destruct (IH (S i) s H) as (j & Hj & H1). exists j. split; [lia|exact H1].
Qed.

(** The decision depends on the test only through the calls listed. *)
Theorem C59_calls : forall k (U U' : K -> option ptr -> K -> option bool) (X : option ptr) (g : bool)
    lo (norms hVals : list K) cnt i flags reset proj,
  let vec (j : nat) := if g then option_map (fun x => shift_ptr x (j - lo)) X else None in
  (forall s, In s (calls ro k X g lo norms hVals cnt i) ->
     U (sh_val s) (sh_vec s) (sh_norm s) = U' (sh_val s) (sh_vec s) (sh_norm s)) ->
  check_loop ro k (fun j v n => U v (vec j) n) lo norms hVals cnt i flags reset proj
  = check_loop ro k (fun j v n => U' v (vec j) n) lo norms hVals cnt i flags reset proj.
Proof.
  intros k U U' X g lo norms hVals cnt. induction cnt as [|c IH]; intros i flags reset proj vec H; [reflexivity|].
  cbn [check_loop]. cbn [calls] in H.
  destruct (get norms (i - lo)) as [n|] eqn:En; [|reflexivity].
  destruct (get hVals i) as [v|] eqn:Ev; [|reflexivity].
  cbn [lift obind]. destruct (get flags i) as [fl|]; [|reflexivity]. cbn [lift obind].
  assert (E : judge ro k (fun v n => U v (vec i) n) fl v n = judge ro k (fun v n => U' v (vec i) n) fl v n).
  { unfold judge. destruct (outside ro k v n) eqn:Eo; [reflexivity|].
    destruct (r_le ro n (k_maxConvTol k)) eqn:El; [reflexivity|].
    cbn [orb] in H. specialize (H _ (or_introl eq_refl)).
    cbn [sh_val sh_vec sh_norm] in H. unfold vec. rewrite H. reflexivity. }
  rewrite E. destruct (judge ro k (fun v n => U' v (vec i) n) fl v n) as [[[fl' rs] pr]| |]; [|reflexivity|reflexivity]. cbn [obind].
  destruct (put flags i fl'); [|reflexivity]. cbn [lift obind].
  apply IH. intros s Hs. apply H. apply in_or_app. right. exact Hs.
Qed.
End Calls.

Section Fits.
Context {K : Type} (o : scal K) (L : laws o) (ro : rops K).

Add Field Kf : (l_field o L).
Lemma neg_mul a b : kmul o (kopp o a) b = kopp o (kmul o a b).
Proof. ring. Qed.

Lemma rotated_op np mV A hasB B n (mem : nat -> @memory K) h :
  operator o np mV A -> operator o np mV B -> holds_products hasB np mV A B n mem ->
  forall j p r, p < np -> r < mV p ->
    rotated o (mem p) (1, 0) n h j r = A (fun q s => rotated o (mem q) (0, 0) n h j s) p r /\
    rotated o (mem p) (mass hasB, 0) n h j r = B (fun q s => rotated o (mem q) (0, 0) n h j s) p r.
Proof.
  intros HA HB HP j p r Hp Hr. split.
  - refine (eq_trans _ (eq_sym (op_linear o np mV A HA n (fun l q s => mem q 0 l s) (fun l => h l j) p r Hp Hr))).
    unfold rotated.
    apply sum_ext. intros l Hl. cbn. rewrite (Logic.proj1 (HP l p r Hl Hp Hr)). reflexivity.
  - refine (eq_trans _ (eq_sym (op_linear o np mV B HB n (fun l q s => mem q 0 l s) (fun l => h l j) p r Hp Hr))).
    unfold rotated.
    apply sum_ext. intros l Hl. cbn. rewrite (proj2 (HP l p r Hl Hp Hr)). reflexivity.
Qed.

(** If the vector at [x] is column [j] of V*h, its residual is column [j] of W*h - B*V*h*value. *)
Lemma residual_of sq np mV A B hasB n (mem mem' : nat -> @memory K) h j x val :
  operator o np mV A -> operator o np mV B -> holds_products hasB np mV A B n mem ->
  (forall p r, p < np -> r < mV p -> at_ptr mem' x p r = rotated o (mem p) (0, 0) n h j r) ->
  let R p r := ksub o (rotated o (mem p) (1, 0) n h j r) (kmul o val (rotated o (mem p) (mass hasB, 0) n h j r)) in
  residual_norm o sq np mV A B val (at_ptr mem' x) = sq (SpecVwxr.inner o np mV R R).
Proof.
  intros HA HB HP Hx R. unfold residual_norm. f_equal. unfold SpecVwxr.inner.
  apply sum_ext. intros p Hp. apply sum_ext. intros r Hr.
  assert (E : ksub o (A (at_ptr mem' x) p r) (kmul o val (B (at_ptr mem' x) p r)) = R p r).
  { unfold R. destruct (rotated_op np mV A hasB B n mem h HA HB HP j p r Hp Hr) as [-> ->].
    rewrite (op_local o np mV A HA _ _ Hx p r Hp Hr), (op_local o np mV B HB _ _ Hx p r Hp Hr). reflexivity. }
  rewrite E. reflexivity.
Qed.

Theorem C59_restart : forall cplx pbs imax sq k hasB hasBe G H basisSize rs sb left packed ev h hVals np mV mem A B,
  2 <= pbs -> 2 <= rs -> 1 <= np -> left + packed <= rs -> left + packed <= length hVals ->
  operator o np mV A -> operator o np mV B -> holds_products hasB np mV A B basisSize mem ->
  let vals i := nth i hVals (k0 o) in
  exists res,
    update_VWXR o cplx pbs imax sq np (restart_job hasB hasBe G H basisSize rs sb left packed ev h vals) mV mem = Some res /\
    forall s, In s (restart_calls ro k left packed (map (r_r res) (seq 0 (rs - left))) hVals) ->
      fits o eq sq np mV A B (r_mem res) s.
Proof.
  intros cplx pbs imax sq k hasB hasBe G H basisSize rs sb left packed ev h hVals np mV mem A B
    Hp Hrs Hn Hl Hv HA HB HP vals.
  destruct (C56_restart o L cplx pbs imax sq Hp hasB hasBe G H basisSize rs sb left packed ev h vals np mV mem Hrs Hn)
    as (res & Er & Hm & _ & Hr & _).
  exists res. split; [exact Er|]. intros s Hs. unfold restart_calls in Hs.
  destruct (calls_in ro _ _ _ _ _ _ _ _ _ Hs) as (j & Hj & H1 & H2 & H3).
  unfold shift_ptr in H3. cbn [option_map Datatypes.fst Datatypes.snd] in H3.
  replace (left + (j - left)) with j in H3 by lia.
  exists (0, j). split; [exact H3|].
  assert (E1 : sh_norm s = r_r res (j - left)).
  { unfold get in H1. rewrite nth_error_map, (nth_error_nth' _ 0) in H1 by (rewrite seq_length; lia).
    rewrite seq_nth in H1 by lia. cbn in H1. congruence. }
  assert (E2 : sh_val s = vals j).
  { unfold get in H2. unfold vals. symmetry. apply nth_error_nth. exact H2. }
  rewrite E1, Hr by lia. replace (left + (j - left)) with j by lia. rewrite E2.
  symmetry. rewrite (residual_of sq np mV A B hasB basisSize mem (r_mem res) h j (0, j) (vals j) HA HB HP).
  - unfold mass. reflexivity.
  - intros p r Hp' Hr'. destruct (Hm p Hp') as (HV & _). unfold at_ptr. cbn. apply HV; auto; lia.
Qed.

Theorem C59_candidates : forall cplx pbs imax sq k hasB basisSize bs n h est valsL np mV mem A B,
  2 <= pbs -> 1 <= np -> length valsL = n ->
  operator o np mV A -> operator o np mV B -> holds_products hasB np mV A B basisSize mem ->
  let vals i := nth i valsL (k0 o) in
  let J := candidates_job hasB true basisSize bs n h vals in
  (cplx = true -> forall p, p < np -> regular_rows pbs imax J (mV p)) ->
  exists res,
    update_VWXR o cplx pbs imax sq np J mV mem = Some res /\
    forall s, In s (candidate_calls ro k true basisSize bs n (map (floor_norms ro est bs n (r_R res)) (seq 0 n)) valsL) ->
      fits o (fun given exact => given = exact \/ given = r_max ro exact est) sq np mV A B (r_mem res) s.
Proof.
  intros cplx pbs imax sq k hasB basisSize bs n h est valsL np mV mem A B Hp Hn Hlen HA HB HP vals J Hreg.
  assert (Lay : layout J) by apply (C56_callers o hasB false None None basisSize 0 n h vals).
  destruct (C56_update o L cplx pbs imax sq Hp J Lay np mV mem Hn Hreg ltac:(reflexivity))
    as (res & Er & Hm & HR & _).
  exists res. split; [exact Er|]. intros s Hs. unfold candidate_calls in Hs.
  destruct (calls_in ro _ _ _ _ _ _ _ _ _ Hs) as (j & Hj & H1 & H2 & H3).
  unfold shift_ptr in H3. cbn [option_map Datatypes.fst Datatypes.snd] in H3. rewrite Nat.sub_0_r in *.
  exists (0, basisSize + bs + j). split; [exact H3|].
  assert (E1 : sh_norm s = floor_norms ro est bs n (r_R res) j).
  { unfold get in H1. rewrite nth_error_map, (nth_error_nth' _ 0) in H1 by (rewrite seq_length; lia).
    rewrite seq_nth in H1 by lia. cbn in H1. congruence. }
  assert (E2 : sh_val s = vals j).
  { unfold get in H2. unfold vals. symmetry. apply nth_error_nth. exact H2. }
  assert (E3 : r_R res j = residual_norm o sq np mV A B (sh_val s) (at_ptr (r_mem res) (0, basisSize + bs + j))).
  { rewrite E2. rewrite (residual_of sq np mV A B hasB basisSize mem (r_mem res) h j _ (vals j) HA HB HP).
    - rewrite (HR j eq_refl) by (cbn; lia). f_equal. unfold SpecVwxr.inner. apply sum_ext. intros p Hp'.
      apply sum_ext. intros r Hr'. unfold residual, J. cbn [o_b j_r candidates_job Nat.add ptr_or j_W j_V j_nV j_h j_vals j_BV].
      unfold mass. destruct hasB; reflexivity.
    - intros p r Hp' Hr'. destruct (Hm p Hp') as (HV & _).
      apply (HV (j_x0 J) ltac:(cbn; auto) 0 (basisSize + bs) j r eq_refl); cbn; lia. }
  rewrite <- E3, E1. unfold floor_norms. destruct (bs + j <? n); auto.
Qed.

(** Without the vectors the test gets none. *)
Theorem C59_no_vector : forall k basisSize bs n norms vals s,
  In s (candidate_calls ro k false basisSize bs n norms vals) -> sh_vec s = None.
Proof.
  intros k basisSize bs n norms vals s Hs. destruct (calls_in ro _ _ _ _ _ _ _ _ _ Hs) as (j & _ & _ & _ & H). exact H.
Qed.

Theorem C59_verify : forall sq k hasB basisSize hVals np mV mem A B,
  basisSize <= length hVals -> operator o np mV A -> operator o np mV B -> holds_products hasB np mV A B basisSize mem ->
  let out := verify_norms o sq hasB (fun i => nth i hVals (k0 o)) basisSize np mV mem in
  (forall p j r, Datatypes.snd out p 0 j r = mem p 0 j r) /\
  forall s, In s (verify_calls ro k basisSize (Datatypes.fst out) hVals) ->
    fits o eq sq np mV A B (Datatypes.snd out) s.
Proof.
  intros sq k hasB basisSize hVals np mV mem A B Hv HA HB HP out.
  assert (H0 : forall p j r, Datatypes.snd out p 0 j r = mem p 0 j r) by reflexivity.
  split; [exact H0|]. intros s Hs. unfold verify_calls in Hs.
  destruct (calls_in ro _ _ _ _ _ _ _ _ _ Hs) as (j & Hj & H1 & H2 & H3).
  unfold shift_ptr in H3. cbn [option_map Datatypes.fst Datatypes.snd] in H3. rewrite Nat.sub_0_r in *. cbn [Nat.add] in H3.
  exists (0, j). split; [exact H3|].
  unfold get in H1, H2. unfold out, verify_norms in H1. cbv zeta in H1. cbn [Datatypes.fst] in H1.
  rewrite nth_error_map, (nth_error_nth' _ 0) in H1 by (rewrite seq_length; lia).
  rewrite seq_nth in H1 by lia. cbn [option_map Nat.add] in H1. injection H1 as <-.
  unfold residual_norm. f_equal. unfold SpecVwxr.inner, dot. apply sum_ext. intros p Hp. apply sum_ext. intros r Hr.
  assert (E : verify_W o hasB (fun i => nth i hVals (k0 o)) basisSize (mV p) (mem p) 1 j r
    = ksub o (A (at_ptr (Datatypes.snd out) (0, j)) p r) (kmul o (sh_val s) (B (at_ptr (Datatypes.snd out) (0, j)) p r))).
  { unfold verify_W. rewrite (proj2 (Nat.ltb_lt j basisSize)), (proj2 (Nat.ltb_lt r (mV p))) by lia. cbn [Nat.eqb andb].
    destruct (HP j p r ltac:(lia) Hp Hr) as [-> EB]. unfold mass in EB. rewrite EB.
    rewrite (nth_error_nth _ _ _ H2).
    change (at_ptr (Datatypes.snd out) (0, j)) with (at_ptr mem (0, j)).
    pose proof (F_R (l_field o L)) as F.
    rewrite (Rsub_def F), (Radd_comm F). f_equal.
    apply neg_mul. }
  rewrite E. reflexivity.
Qed.
End Fits.
