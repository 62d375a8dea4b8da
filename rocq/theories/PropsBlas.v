(** C55: the operations on blocks of vectors compute what they are documented to. *)
From Coq Require Import List Arith Bool Lia Field Setoid.
From Verif Require Import Base ProjModel SpecProj MatAlg BlasModel SpecBlas.
Import ListNotations.

(** ** Positions. *)
Lemma hit_true off inc n q : 1 <= inc ->
  hit off inc n q = true <-> exists i, i < n /\ q = off + i * inc.
Proof.
  intros Hi. unfold hit. rewrite !andb_true_iff, Nat.leb_le, Nat.eqb_eq, Nat.ltb_lt. split.
  - intros [[H1 H2] H3]. exists ((q - off) / inc). split; auto.
    pose proof (Nat.div_mod (q - off) inc ltac:(lia)). lia.
  - intros (i & Hlt & ->). replace (off + i * inc - off) with (i * inc) by lia.
    rewrite Nat.mod_mul by lia. rewrite Nat.div_mul by lia. repeat split; auto; lia.
Qed.
Lemma hit_at off inc n i : 1 <= inc -> hit off inc n (off + i * inc) = (i <? n).
Proof.
  intros Hi. unfold hit. replace (off + i * inc - off) with (i * inc) by lia.
  rewrite Nat.mod_mul, Nat.div_mul by lia. rewrite (proj2 (Nat.leb_le _ _)) by lia. reflexivity.
Qed.
Lemma idx_at off inc i : 1 <= inc -> (off + i * inc - off) / inc = i.
Proof. intros. replace (off + i * inc - off) with (i * inc) by lia. apply Nat.div_mul. lia. Qed.
Lemma hit_false off inc n q : 1 <= inc ->
  (forall i, i < n -> q <> off + i * inc) -> hit off inc n q = false.
Proof.
  intros Hi H. destruct (hit off inc n q) eqn:E; auto. apply hit_true in E; auto.
  destruct E as (i & Hlt & ->). exfalso. apply (H i); auto.
Qed.
Lemma hit_dec off inc n q : 1 <= inc ->
  (exists i, i < n /\ q = off + i * inc) \/ (forall i, i < n -> q <> off + i * inc).
Proof.
  intros Hi. destruct (hit off inc n q) eqn:E.
  - left. apply hit_true; auto.
  - right. intros i Hlt ->. rewrite hit_at in E by auto. apply Nat.ltb_ge in E. lia.
Qed.
Lemma blk_mod i j ld : i < ld -> (j * ld + i) mod ld = i.
Proof. intros. rewrite Nat.add_comm, Nat.mod_add by lia. apply Nat.mod_small. auto. Qed.
Lemma blk_div i j ld : i < ld -> (j * ld + i) / ld = j.
Proof. intros. rewrite Nat.div_add_l by lia. rewrite Nat.div_small by auto. lia. Qed.
Lemma blk_in m n ld i j : m <= ld -> i < m -> j < n -> inblock m n ld (j * ld + i) = true.
Proof.
  intros. unfold inblock. rewrite blk_mod, blk_div by lia.
  rewrite (proj2 (Nat.ltb_lt _ _)), (proj2 (Nat.ltb_lt _ _)) by auto. reflexivity.
Qed.
Lemma blk_out m n ld q : m <= ld -> (forall i j, i < m -> j < n -> q <> j * ld + i) ->
  inblock m n ld q = false.
Proof.
  intros Hm H. destruct (inblock m n ld q) eqn:E; auto. unfold inblock in E.
  apply andb_true_iff in E. destruct E as [E1 E2]. apply Nat.ltb_lt in E1. apply Nat.ltb_lt in E2.
  exfalso. apply (H _ _ E1 E2). pose proof (Nat.div_mod q ld ltac:(lia)). lia.
Qed.

Section Kernels.
Context {K : Type} (o : scal K) (L : laws o).
Variable cplx : bool. Variable bmax pbs : nat. Variable kcode : K.
Hypothesis Hb : 2 <= bmax.
Hypothesis Hreal : real_build o cplx.
Add Field Kf : (l_field o L).
Notation "a +k b" := (kadd o a b) (at level 50, left associativity).
Notation "a *k b" := (kmul o a b) (at level 40, left associativity).

Lemma iszero_true a : iszero o a = true -> a = k0 o.
Proof. apply (l_zero o L). Qed.
Lemma isone_true a : isone o a = true -> a = k1 o.
Proof.
  intros H. apply (l_zero o L) in H.
  transitivity (ksub o a (k1 o) +k k1 o); [ring|]. rewrite H. ring.
Qed.
Lemma in_int n : n <= bmax -> in_blas_int bmax n = true.
Proof. intros. apply Nat.leb_le. auto. Qed.

(** *** Scaling. *)
Lemma scal_from_ok fuel : forall n alpha x off inc, n <= fuel -> 1 <= inc -> (inc = 1 \/ n < bmax) ->
  forall q, scal_from o bmax fuel n alpha x off inc q = if hit off inc n q then alpha *k x q else x q.
Proof.
  induction fuel as [|f IH]; intros n alpha x off inc Hf Hi Hc q; cbn [scal_from].
  - rewrite hit_false; auto. lia.
  - destruct (n =? 0) eqn:E0.
    { apply Nat.eqb_eq in E0. rewrite hit_false; auto. lia. }
    apply Nat.eqb_neq in E0. set (ln := Nat.min n (bmax - 1)).
    assert (1 <= ln <= n) by (unfold ln; lia).
    rewrite IH; [|lia|auto|destruct Hc; [left; auto|right; unfold ln; lia]].
    destruct Hc as [->|Hc].
    + unfold xscal. destruct (hit_dec (off + ln) 1 (n - ln) q) as [(i & Hl & ->)|Hn]; [lia| |].
      * rewrite (hit_at (off + ln)) by lia. rewrite (proj2 (Nat.ltb_lt _ _)) by auto.
        rewrite hit_false; [|lia|intros; lia].
        replace (off + ln + i * 1) with (off + (ln + i) * 1) by lia. rewrite hit_at by lia.
        rewrite (proj2 (Nat.ltb_lt _ _)) by lia. reflexivity.
      * rewrite (hit_false (off + ln)) by (lia || auto).
        destruct (hit_dec off 1 ln q) as [(i & Hl & ->)|Hn2]; [lia| |].
        -- rewrite !hit_at by lia. rewrite !(proj2 (Nat.ltb_lt _ _)) by lia. reflexivity.
        -- rewrite (hit_false off 1 ln) by (lia || auto). rewrite hit_false; auto.
           intros i Hl. destruct (Nat.lt_ge_cases i ln); [auto|]. intros ->.
           apply (Hn (i - ln)); lia.
    + replace ln with n by (unfold ln; lia). rewrite Nat.sub_diag.
      rewrite (hit_false (off + n)) by lia. reflexivity.
Qed.
(** *** Inner product. *)
Lemma dot_from_ok fuel : forall n x incx y incy off r, n <= fuel ->
  (incx = 1 /\ incy = 1 \/ n < bmax) ->
  dot_from o bmax fuel n x incx y incy off r = r +k xdot o n (shift off x) incx (shift off y) incy.
Proof.
  induction fuel as [|f IH]; intros n x incx y incy off r Hf Hc; cbn [dot_from].
  - replace n with 0 by lia. unfold xdot. cbn. ring.
  - destruct (n =? 0) eqn:E0.
    { apply Nat.eqb_eq in E0. subst n. unfold xdot. cbn. ring. }
    apply Nat.eqb_neq in E0. set (ln := Nat.min n (bmax - 1)).
    assert (1 <= ln <= n) by (unfold ln; lia).
    rewrite IH; [|lia|destruct Hc; [left; auto|right; lia]].
    destruct Hc as [[-> ->]|Hc].
    + unfold xdot. replace n with (ln + (n - ln)) at 2 by lia. rewrite (sum_split o L ln (n - ln)).
      rewrite (sum_ext o (n - ln) (fun i => shift (off + ln) x (i * 1) *k shift (off + ln) y (i * 1))
                 (fun i => shift off x ((ln + i) * 1) *k shift off y ((ln + i) * 1))).
      * ring.
      * intros i _. unfold shift. replace (off + ln + i * 1) with (off + (ln + i) * 1) by lia. reflexivity.
    + replace ln with n by (unfold ln; lia). rewrite Nat.sub_diag. unfold xdot. cbn. ring.
Qed.
Lemma num_dot_ok n x incx y incy : incx <= bmax -> incy <= bmax ->
  (cplx = true \/ incx = 1 /\ incy = 1 \/ n < bmax) ->
  num_dot o cplx bmax kcode n x incx y incy
  = sum o n (fun i => kconj o (x (i * incx)) *k y (i * incy)).
Proof.
  intros H1 H2 H3. unfold num_dot. destruct cplx eqn:E; auto.
  rewrite !in_int by auto. cbn [andb]. rewrite dot_from_ok by (destruct H3; [discriminate|auto]).
  unfold xdot, shift. cbn.
  transitivity (sum o n (fun i => x (i * incx) *k y (i * incy))); [ring|].
  apply sum_ext. intros. rewrite (Hreal eq_refl). reflexivity.
Qed.
(** *** x plus y. *)
Lemma axpy_from_ok fuel : forall n alpha x incx y off incy, n <= fuel -> 1 <= incy ->
  (incx = 1 /\ incy = 1 \/ n < bmax) ->
  forall q, axpy_from o bmax fuel n alpha x incx y off incy q
    = if hit off incy n q then y q +k alpha *k x (off + (q - off) / incy * incx) else y q.
Proof.
  induction fuel as [|f IH]; intros n alpha x incx y off incy Hf Hi Hc q; cbn [axpy_from].
  - rewrite hit_false; auto. lia.
  - destruct (n =? 0) eqn:E0.
    { apply Nat.eqb_eq in E0. rewrite hit_false; auto. lia. }
    apply Nat.eqb_neq in E0. set (ln := Nat.min n (bmax - 1)).
    assert (1 <= ln <= n) by (unfold ln; lia).
    rewrite IH; [|lia|auto|destruct Hc; [left; auto|right; unfold ln; lia]].
    destruct Hc as [[-> ->]|Hc].
    + unfold xaxpy. destruct (hit_dec (off + ln) 1 (n - ln) q) as [(i & Hl & ->)|Hn]; [lia| |].
      * rewrite (hit_at (off + ln)) by lia. rewrite (proj2 (Nat.ltb_lt _ _)) by auto.
        rewrite hit_false; [|lia|intros; lia].
        replace (off + ln + i * 1) with (off + (ln + i) * 1) by lia. rewrite hit_at by lia.
        rewrite (proj2 (Nat.ltb_lt _ _)) by lia. rewrite idx_at by lia.
        replace (off + (ln + i) * 1 - (off + ln)) with i by lia. rewrite Nat.div_1_r.
        do 3 f_equal. lia.
      * rewrite (hit_false (off + ln)) by (lia || auto).
        destruct (hit_dec off 1 ln q) as [(i & Hl & ->)|Hn2]; [lia| |].
        -- rewrite !hit_at by lia. rewrite !(proj2 (Nat.ltb_lt _ _)) by lia. reflexivity.
        -- rewrite (hit_false off 1 ln) by (lia || auto). rewrite hit_false; auto.
           intros i Hl. destruct (Nat.lt_ge_cases i ln); [auto|]. intros ->.
           apply (Hn (i - ln)); lia.
    + replace ln with n by (unfold ln; lia). rewrite Nat.sub_diag.
      rewrite (hit_false (off + n)) by lia. reflexivity.
Qed.

(** *** Matrix times vector. *)
Lemma gemv_from_ok fuel : forall t m n alpha a lda x incx beta y incy oa ox oy, m <= fuel ->
  1 <= n -> Nat.max 1 m <= lda -> 1 <= incx -> 1 <= incy -> 1 <= m ->
  (m < bmax \/ (if isN t then incy else incx) = 1) ->
  exists y', gemv_from o bmax fuel t m n alpha a lda x incx beta y incy oa ox oy = Done y' /\
    forall q, y' q = if hit oy incy (if isN t then m else n) q
      then alpha *k sum o (if isN t then n else m) (fun l =>
             el o t (shift oa a) lda ((q - oy) / incy) l *k shift ox x (l * incx)) +k beta *k y q
      else y q.
Proof.
  induction fuel as [|f IH]; intros t m n alpha a lda x incx beta y incy oa ox oy Hf Hn Hl Hix Hiy Hm Hc; [lia|].
  cbn [gemv_from]. rewrite (proj2 (Nat.eqb_neq m 0)) by lia.
  set (lm := Nat.min m (bmax - 1)). assert (Hlm : 1 <= lm <= m) by (unfold lm; lia).
  unfold xgemv at 1.
  rewrite (proj2 (Nat.ltb_ge lda (Nat.max 1 lm))) by lia.
  rewrite (proj2 (Nat.eqb_neq incx 0)), (proj2 (Nat.eqb_neq incy 0)) by lia. cbn [orb rbind].
  match goal with |- context [gemv_from _ _ _ _ _ _ _ _ _ _ _ _ ?yy] => set (y1 := yy) end.
  destruct (Nat.eq_dec lm m) as [Em|Em].
  { rewrite Em, Nat.sub_diag.
    assert (Hz : forall a1 a2 a3 b, gemv_from o bmax f t 0 n alpha a lda x incx b y1 incy a1 a2 a3 = Done y1)
      by (intros; destruct f; reflexivity).
    destruct (isN t) eqn:Et; rewrite Hz; exists y1; (split; [reflexivity|]); intros q; unfold y1;
      rewrite Em; reflexivity. }
  assert (Hc' : (if isN t then incy else incx) = 1) by (destruct Hc; [unfold lm in Em; lia|auto]).
  destruct (isN t) eqn:Et.
  - destruct t; try discriminate. subst incy. clear Hc.
    destruct (IH trN (m - lm) n alpha a lda x incx beta y1 1 (oa + lm) ox (oy + lm)) as (y' & -> & Hy);
      cbn [isN]; try lia.
    cbn [isN] in Hy.
    exists y'. split; [reflexivity|]. intros q. rewrite Hy. unfold y1.
    destruct (hit_dec (oy + lm) 1 (m - lm) q) as [(i & Hli & ->)|Hnh]; [lia| |].
    + rewrite (hit_at (oy + lm)) by lia. rewrite (proj2 (Nat.ltb_lt _ _)) by auto.
      rewrite (hit_false oy 1 lm); [|lia|intros; lia].
      replace (oy + lm + i * 1) with (oy + (lm + i) * 1) by lia. rewrite hit_at, idx_at by lia.
      rewrite (proj2 (Nat.ltb_lt _ _)) by lia. replace (oy + (lm + i) * 1 - (oy + lm)) with i by lia.
      rewrite Nat.div_1_r. do 2 f_equal. apply sum_ext. intros l _. unfold el, shift. do 2 f_equal. lia.
    + rewrite (hit_false (oy + lm)) by (lia || auto).
      destruct (hit_dec oy 1 lm q) as [(i & Hli & ->)|Hn2]; [lia| |].
      * rewrite !hit_at, idx_at by lia. rewrite !(proj2 (Nat.ltb_lt _ _)) by lia. reflexivity.
      * rewrite (hit_false oy 1 lm) by (lia || auto). rewrite hit_false; auto.
        intros i Hli. destruct (Nat.lt_ge_cases i lm); [auto|]. intros ->. apply (Hnh (i - lm)); lia.
  - subst incx.
    destruct (IH t (m - lm) n alpha a lda x 1 (k1 o) y1 incy (oa + lm) (ox + lm) oy) as (y' & -> & Hy);
      try lia; [rewrite Et; auto|].
    rewrite Et in Hy. exists y'. split; [reflexivity|]. intros q. rewrite Hy. unfold y1.
    destruct (hit oy incy n q) eqn:Eh; auto.
    replace m with (lm + (m - lm)) at 2 by lia. rewrite (sum_split o L).
    match goal with |- alpha *k ?S1 +k k1 o *k (alpha *k ?S2 +k ?b) = alpha *k (?S3 +k ?S4) +k ?b =>
      assert (Hs : S1 = S4); [|rewrite Hs; ring] end.
    apply sum_ext. intros l _. destruct t; try discriminate; unfold el, shift;
      repeat (f_equal; try lia).
Qed.

Lemma updated_pt m n pre post alpha P beta c ldc c' : m <= ldc ->
  (forall q, c' q = if inblock m n ldc q
     then post (alpha *k P (q mod ldc) (q / ldc) +k beta *k pre (c q)) else c q) ->
  updated o m n pre post alpha P beta c ldc c'.
Proof.
  intros Hm H. split.
  - intros i j Hi Hj. rewrite H, blk_in, blk_mod, blk_div by lia. reflexivity.
  - intros q Hq. rewrite H, blk_out by auto. reflexivity.
Qed.
Lemma updated_hit n pre post alpha P beta y inc y' : 1 <= inc ->
  (forall q, y' q = if hit 0 inc n q then post (alpha *k P 0 (q / inc) +k beta *k pre (y q)) else y q) ->
  updated o 1 n pre post alpha P beta y inc y'.
Proof.
  intros Hm H. split.
  - intros i j Hi Hj. replace i with 0 by lia. rewrite Nat.add_0_r, H.
    pose proof (hit_at 0 inc n j ltac:(lia)) as E. rewrite Nat.add_0_l in E. rewrite E.
    rewrite (proj2 (Nat.ltb_lt _ _)) by auto. rewrite Nat.div_mul by lia. reflexivity.
  - intros q Hq. rewrite H, hit_false; auto. intros i Hi. pose proof (Hq 0 i ltac:(lia) Hi). lia.
Qed.
Lemma inblock_hit n inc q : 1 <= inc -> inblock 1 n inc q = hit 0 inc n q.
Proof.
  intros Hi. unfold inblock, hit. rewrite Nat.sub_0_r. cbn [Nat.leb andb].
  f_equal. destruct (q mod inc); reflexivity.
Qed.
Lemma el_op t a lda i l : el o t a lda i l = op o t (stored a lda) i l.
Proof. destruct t; reflexivity. Qed.

(** The product with op(A), for a vector. *)
Lemma gemv_ok t m n alpha a lda x incx beta y incy :
  n < bmax -> m <= lda <= bmax -> 1 <= incx <= bmax -> 1 <= incy <= bmax ->
  (m < bmax \/ incx = 1 /\ incy = 1) ->
  (cplx = true -> t = trC \/ (if isN t then m else n) <> 1) ->
  exists y', gemv o cplx bmax kcode t m n alpha a lda x incx beta y incy = Done y' /\
    updated o 1 (if isN t then m else n) same_as same_as alpha
      (fun _ j => mul o (if isN t then n else m) (op o t (stored a lda)) (strided x incx) j 0) beta y incy y'.
Proof.
  intros Hn Hl Hix Hiy Hlong Hx. unfold gemv. rewrite !in_int by lia. cbn [negb andb].
  set (mA := if isN t then m else n). set (nA := if isN t then n else m).
  destruct (mA =? 0) eqn:E0.
  { apply Nat.eqb_eq in E0. exists y. split; [reflexivity|]. rewrite E0. split; [lia|auto]. }
  apply Nat.eqb_neq in E0.
  destruct ((nA =? 0) || iszero o alpha) eqn:Eq.
  { eexists. split; [reflexivity|]. apply updated_hit; [lia|]. intros q. unfold same_as.
    assert (Hz : alpha *k mul o nA (op o t (stored a lda)) (strided x incx) (q / incy) 0 = k0 o).
    { apply orb_true_iff in Eq. destruct Eq as [Eq|Eq].
      - apply Nat.eqb_eq in Eq. rewrite Eq. unfold mul. cbn. ring.
      - apply iszero_true in Eq. rewrite Eq. ring. }
    rewrite Hz. destruct (iszero o beta) eqn:Eb.
    - apply iszero_true in Eb. subst beta. unfold zero_matrix. rewrite inblock_hit by lia.
      destruct (hit 0 incy mA q); [ring|reflexivity].
    - unfold scal_at. rewrite in_int by lia. rewrite scal_from_ok; [|lia|lia|].
      + destruct (hit 0 incy mA q); [ring|reflexivity].
      + unfold mA. destruct (isN t); [destruct Hlong as [?|[_ ?]]; auto|auto]. }
  apply orb_false_iff in Eq. destruct Eq as [En _]. apply Nat.eqb_neq in En.
  destruct (mA =? 1) eqn:E1.
  { apply Nat.eqb_eq in E1. eexists. split; [reflexivity|].
    assert (Hd : (if isN t then num_dot o cplx bmax kcode nA a lda x incx
                  else num_dot o cplx bmax kcode nA a 1 x incx)
                 = mul o nA (op o t (stored a lda)) (strided x incx) 0 0).
    { unfold mul, strided. destruct t; cbn [isN op] in *.
      - rewrite num_dot_ok; [|lia|lia|right; right; exact Hn]. apply sum_ext. intros l _. unfold stored.
        rewrite Nat.add_0_r. destruct cplx eqn:Ec; [|rewrite (Hreal eq_refl); reflexivity].
        destruct (Hx eq_refl) as [Hx'|Hx']; [discriminate|]. contradiction.
      - rewrite num_dot_ok; [|lia|lia|right; destruct Hlong as [?|[-> ->]]; auto]. apply sum_ext.
        intros l _. unfold stored. rewrite Nat.mul_1_r. cbn [Nat.mul Nat.add].
        destruct cplx eqn:Ec; [|rewrite (Hreal eq_refl); reflexivity].
        destruct (Hx eq_refl) as [Hx'|Hx']; [discriminate|]. contradiction.
      - rewrite num_dot_ok; [|lia|lia|right; destruct Hlong as [?|[-> ->]]; auto]. apply sum_ext.
        intros l _. unfold adj, stored. rewrite Nat.mul_1_r. reflexivity. }
    rewrite Hd. rewrite E1. apply updated_hit; [lia|]. intros q. unfold same_as.
    destruct (q =? 0) eqn:Eq0.
    - apply Nat.eqb_eq in Eq0. subst q. pose proof (hit_at 0 incy 1 0 ltac:(lia)) as Eh. cbn in Eh.
      rewrite Eh. rewrite Nat.div_0_l by lia.
      destruct (iszero o beta) eqn:Eb; [apply iszero_true in Eb; subst beta|]; ring.
    - apply Nat.eqb_neq in Eq0. rewrite hit_false; auto; [lia|]. intros i Hi. replace i with 0 by lia. lia. }
  apply Nat.eqb_neq in E1.
  destruct (gemv_from_ok m t m n alpha a lda x incx beta y incy 0 0 0) as (y' & -> & Hy); try lia;
    try (unfold mA, nA in *; destruct (isN t); lia).
  exists y'. split; [reflexivity|]. apply updated_hit; [lia|]. intros q. unfold same_as. rewrite Hy. fold mA nA.
  destruct (hit 0 incy mA q); [|reflexivity]. rewrite Nat.sub_0_r. do 2 f_equal.
  apply sum_ext. intros l _. rewrite el_op. reflexivity.
Qed.

(** *** Matrix times matrix. *)
Lemma scal_cols_ok n : forall m beta c ldc i0, m <= ldc -> m <= bmax ->
  forall q, scal_cols o bmax n m beta c ldc i0 q
    = if (i0 <=? q / ldc) && (q mod ldc <? m) && (q / ldc <? i0 + n) then beta *k c q else c q.
Proof.
  induction n as [|n IH]; intros m beta c ldc i0 Hl Hm q; cbn [scal_cols].
  - destruct (i0 <=? q / ldc) eqn:E1; cbn [andb]; auto. apply Nat.leb_le in E1.
    rewrite (proj2 (Nat.ltb_ge (q / ldc) (i0 + 0))) by lia. rewrite andb_false_r. reflexivity.
  - rewrite IH by auto.
    unfold scal_at. rewrite in_int by lia. rewrite scal_from_ok by (lia || auto).
    destruct m as [|m].
    { rewrite (hit_false (ldc * i0) 1 0) by lia. rewrite !(proj2 (Nat.ltb_ge (q mod ldc) 0)) by lia.
      rewrite !andb_false_r. reflexivity. }
    assert (Hh : hit (ldc * i0) 1 (S m) q = (q / ldc =? i0) && (q mod ldc <? S m)).
    { pose proof (Nat.div_mod q ldc ltac:(lia)) as Hd. pose proof (Nat.mod_upper_bound q ldc ltac:(lia)) as Hu.
      destruct (hit_dec (ldc * i0) 1 (S m) q) as [(i & Hi & Eq)|Hno]; [lia| |].
      - rewrite Eq, hit_at by lia. rewrite (proj2 (Nat.ltb_lt _ _)) by auto. symmetry.
        rewrite (Nat.mul_comm ldc i0), Nat.mul_1_r, blk_div, blk_mod by lia.
        rewrite Nat.eqb_refl. apply Nat.ltb_lt. auto.
      - rewrite hit_false by (lia || auto). symmetry. apply andb_false_iff.
        destruct (Nat.eq_dec (q / ldc) i0) as [E|E]; [right|left; apply Nat.eqb_neq; auto].
        apply Nat.ltb_ge. destruct (Nat.lt_ge_cases (q mod ldc) (S m)) as [Hlt|]; [|auto].
        exfalso. apply (Hno (q mod ldc) Hlt). rewrite <- E. lia. }
    rewrite Hh. destruct (q mod ldc <? S m) eqn:Em; rewrite ?andb_true_r, ?andb_false_r; auto.
    cbn [andb]. destruct (q / ldc =? i0) eqn:Ei.
    + apply Nat.eqb_eq in Ei. rewrite Ei. rewrite (proj2 (Nat.leb_gt (S i0) i0)) by lia. cbn [andb].
      rewrite Nat.leb_refl, (proj2 (Nat.ltb_lt i0 (i0 + S n))) by lia. reflexivity.
    + apply Nat.eqb_neq in Ei. replace (S i0 + n) with (i0 + S n) by lia.
      destruct (q / ldc <? i0 + S n) eqn:E2; rewrite ?andb_true_r, ?andb_false_r; auto.
      destruct (S i0 <=? q / ldc) eqn:E3; destruct (i0 <=? q / ldc) eqn:E4; auto.
      * apply Nat.leb_le in E3. apply Nat.leb_gt in E4. lia.
      * apply Nat.leb_le in E4. apply Nat.leb_gt in E3. lia.
Qed.

Lemma gemm_ok ta tb m n k alpha a lda b ldb beta c ldc :
  m < bmax -> n < bmax -> k < bmax ->
  (if isN ta then m else k) <= lda <= bmax ->
  (if isN tb then k else n) <= ldb <= bmax ->
  m <= ldc <= bmax ->
  (cplx = true -> m = 1 -> n = 1 -> ta = trC \/ tb = trC) ->
  exists c', gemm o cplx bmax kcode ta tb m n k alpha a lda b ldb beta c ldc = Done c' /\
    updated o m n same_as same_as alpha (mul o k (op o ta (stored a lda)) (op o tb (stored b ldb))) beta c ldc c'.
Proof.
  intros Hm Hn Hk Hla Hlb Hlc Hx. unfold gemm. rewrite !in_int by lia. cbn [negb andb].
  destruct ((m =? 0) || (n =? 0)) eqn:E0.
  { exists c. split; [reflexivity|]. apply orb_true_iff in E0. rewrite !Nat.eqb_eq in E0.
    split; [lia|auto]. }
  apply orb_false_iff in E0. rewrite !Nat.eqb_neq in E0. destruct E0 as [Hm0 Hn0].
  destruct ((k =? 0) || iszero o alpha) eqn:Eq.
  { eexists. split; [reflexivity|]. apply updated_pt; [lia|]. intros q. unfold same_as.
    assert (Hz : forall i j, alpha *k mul o k (op o ta (stored a lda)) (op o tb (stored b ldb)) i j = k0 o).
    { intros i j. apply orb_true_iff in Eq. destruct Eq as [Eq|Eq].
      - apply Nat.eqb_eq in Eq. rewrite Eq. unfold mul. cbn. ring.
      - apply iszero_true in Eq. rewrite Eq. ring. }
    rewrite Hz. destruct (iszero o beta) eqn:Eb.
    - apply iszero_true in Eb. subst beta. unfold zero_matrix. destruct (inblock m n ldc q); [ring|reflexivity].
    - destruct (isone o beta) eqn:E1; cbn [negb].
      + apply isone_true in E1. subst beta. destruct (inblock m n ldc q); [ring|reflexivity].
      + rewrite scal_cols_ok by lia. unfold inblock. cbn [Nat.leb andb]. rewrite Nat.add_0_l.
        destruct (_ && _); [ring|reflexivity]. }
  apply orb_false_iff in Eq. destruct Eq as [En _]. apply Nat.eqb_neq in En.
  destruct ((n =? 1) && negb (cplx && isC tb)) eqn:E1.
  - apply andb_true_iff in E1. destruct E1 as [E1 E2]. apply Nat.eqb_eq in E1. subst n.
    apply negb_true_iff in E2.
    assert (HmA : (if isN ta then (if isN ta then m else k) else (if isN ta then k else m)) = m)
      by (destruct (isN ta); reflexivity).
    assert (HnA : (if isN ta then (if isN ta then k else m) else (if isN ta then m else k)) = k)
      by (destruct (isN ta); reflexivity).
    destruct (gemv_ok ta (if isN ta then m else k) (if isN ta then k else m) alpha a lda b
                (if isN tb then 1 else ldb) beta c 1) as (c' & -> & Hc).
    + destruct (isN ta); lia.
    + destruct (isN ta); lia.
    + destruct (isN tb); lia.
    + lia.
    + left. destruct (isN ta); lia.
    + intros Hc. rewrite HmA. destruct (Nat.eq_dec m 1) as [->|]; [|auto]. left.
      destruct (Hx Hc eq_refl eq_refl) as [?|Ht]; auto. subst tb. rewrite Hc in E2. discriminate.
    + exists c'. split; [reflexivity|]. rewrite HmA, HnA in Hc. destruct Hc as [Hc1 Hc2]. split.
      * intros i j Hi Hj. replace j with 0 by lia. cbn [Nat.mul Nat.add].
        specialize (Hc1 0 i ltac:(lia) Hi). rewrite Nat.add_0_r, Nat.mul_1_r in Hc1. rewrite Hc1. unfold same_as.
        do 2 f_equal. unfold mul. apply sum_ext. intros l _. f_equal. unfold strided, stored.
        destruct tb; cbn [isN op]; unfold adj; rewrite ?Nat.mul_1_r, ?Nat.add_0_r; auto.
        destruct cplx eqn:Ec; [discriminate|]. rewrite (Hreal eq_refl). reflexivity.
      * intros q Hq. apply Hc2. intros i j Hi Hj. pose proof (Hq j 0 Hj ltac:(lia)). lia.
  - unfold xgemm.
    rewrite (proj2 (Nat.ltb_ge lda _)) by (destruct (isN ta); lia).
    rewrite (proj2 (Nat.ltb_ge ldb _)) by (destruct (isN tb); lia).
    rewrite (proj2 (Nat.ltb_ge ldc _)) by lia.
    cbn [orb]. eexists. split; [reflexivity|]. apply updated_pt; [lia|]. intros q. unfold same_as.
    destruct (inblock m n ldc q); [|reflexivity]. do 2 f_equal. apply sum_ext. intros l _.
    rewrite !el_op. reflexivity.
Qed.
End Kernels.
