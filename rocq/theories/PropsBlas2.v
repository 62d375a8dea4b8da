(** C55: products and updates of blocks with conversions, inner products over the
    processes, the projector of the inner solver and a pass of the
    orthonormalisation. *)
From Coq Require Import List Arith Bool Lia Field Setoid.
From Verif Require Import Base ProjModel SpecProj MatAlg BlasModel SpecBlas PropsBlas.
Import ListNotations.

Section Conv.
Context {K : Type} (o : scal K) (L : laws o).
Variable cplx : bool. Variable bmax pbs : nat. Variable kcode : K.
Hypothesis Hb : 2 <= bmax.
Hypothesis Hreal : real_build o cplx.
Variable same : bool. Variable up down : K -> K. Variable junk : nat -> K.
Hypothesis Hconv : conversions same up down.
Add Field Kf : (l_field o L).
Notation "a +k b" := (kadd o a b) (at level 50, left associativity).
Notation "a *k b" := (kmul o a b) (at level 40, left associativity).

Lemma kinds : same = true \/ same = false.
Proof. destruct same; auto. Qed.
Lemma up_same a : same = true -> up a = a.
Proof. intros H. apply (Logic.proj1 Hconv H). Qed.
Lemma down_same a : same = true -> down a = a.
Proof. intros H. apply (Logic.proj1 Hconv H). Qed.
Lemma down_up a : down (up a) = a.
Proof. apply Hconv. Qed.

Lemma cast_stored ldf m n a lda i j : m <= ldf -> i < m -> j < n ->
  castto up junk ldf m n a lda (j * ldf + i) = up (a (j * lda + i)).
Proof. intros. unfold castto. rewrite blk_in, blk_div, blk_mod by lia. reflexivity. Qed.
Lemma updated_P m n pre post alpha P P' beta c ldc c' : (forall i j, i < m -> j < n -> P i j = P' i j) ->
  updated o m n pre post alpha P beta c ldc c' -> updated o m n pre post alpha P' beta c ldc c'.
Proof. intros HP [H1 H2]. split; auto. intros i j Hi Hj. rewrite H1, HP by auto. reflexivity. Qed.
(** op(A) reads only the rows and columns of A. *)
Lemma op_ext t m k A A' i l : (forall r s, r < (if isN t then m else k) -> s < (if isN t then k else m) -> A r s = A' r s) ->
  i < m -> l < k -> op o t A i l = op o t A' i l.
Proof. intros H Hi Hl. destruct t; cbn [isN op] in *; unfold adj; rewrite ?H by auto; reflexivity. Qed.

(** ** Scaling, adding and inner products of vectors. *)
Theorem C55_vectors : forall n alpha x incx y incy,
  1 <= incx <= bmax -> 1 <= incy <= bmax -> (n < bmax \/ incx = 1 /\ incy = 1) ->
  (exists x', num_scal o bmax n alpha x incx = Done x' /\
     (forall i, i < n -> x' (i * incx) = alpha *k x (i * incx)) /\
     (forall q, (forall i, i < n -> q <> i * incx) -> x' q = x q)) /\
  (exists y', num_axpy o bmax n alpha x incx y incy = Done y' /\
     (forall i, i < n -> y' (i * incy) = y (i * incy) +k alpha *k x (i * incx)) /\
     (forall q, (forall i, i < n -> q <> i * incy) -> y' q = y q)) /\
  num_dot o cplx bmax kcode n x incx y incy
  = sum o n (fun i => kconj o (x (i * incx)) *k y (i * incy)).
Proof.
  intros n alpha x incx y incy Hx Hy Hl.
  assert (Hat : forall inc i, 1 <= inc -> i < n -> hit 0 inc n (i * inc) = true).
  { intros inc i H1 H2. pose proof (hit_at 0 inc n i H1) as E. rewrite Nat.add_0_l in E. rewrite E.
    apply Nat.ltb_lt. auto. }
  repeat split.
  - unfold num_scal. rewrite in_int by lia. eexists. split; [reflexivity|]. split.
    + intros i Hi. rewrite scal_from_ok by (auto; lia || tauto). rewrite Hat by (auto; lia). reflexivity.
    + intros q Hq. rewrite scal_from_ok by (auto; lia || tauto). rewrite hit_false; auto. lia.
  - unfold num_axpy. rewrite !in_int by lia. cbn [andb]. eexists. split; [reflexivity|]. split.
    + intros i Hi. rewrite axpy_from_ok by (auto; lia || tauto). rewrite Hat by (auto; lia).
      rewrite Nat.sub_0_r, Nat.div_mul by lia. reflexivity.
    + intros q Hq. rewrite axpy_from_ok by (auto; lia || tauto). rewrite hit_false; auto. lia.
  - apply num_dot_ok; auto; try lia; tauto.
Qed.

(** ** Products in one precision. *)
Theorem C55_gemv : forall t m n alpha a lda x incx beta y incy,
  n < bmax -> m <= lda <= bmax -> 1 <= incx <= bmax -> 1 <= incy <= bmax ->
  (m < bmax \/ incx = 1 /\ incy = 1) ->
  (cplx = true -> t = trC \/ (if isN t then m else n) <> 1) ->
  exists y', gemv o cplx bmax kcode t m n alpha a lda x incx beta y incy = Done y' /\
    updated o 1 (if isN t then m else n) same_as same_as alpha
      (fun _ j => mul o (if isN t then n else m) (op o t (stored a lda)) (strided x incx) j 0) beta y incy y'.
Proof. intros. apply gemv_ok; auto. Qed.
Theorem C55_gemm : forall ta tb m n k alpha a lda b ldb beta c ldc,
  m < bmax -> n < bmax -> k < bmax ->
  (if isN ta then m else k) <= lda <= bmax -> (if isN tb then k else n) <= ldb <= bmax -> m <= ldc <= bmax ->
  (cplx = true -> m = 1 -> n = 1 -> ta = trC \/ tb = trC) ->
  exists c', gemm o cplx bmax kcode ta tb m n k alpha a lda b ldb beta c ldc = Done c' /\
    updated o m n same_as same_as alpha (mul o k (op o ta (stored a lda)) (op o tb (stored b ldb))) beta c ldc c'.
Proof. intros. apply gemm_ok; auto. Qed.

(** ** Products with conversion. *)
Lemma back_ok m n alpha P beta c ldc cf' : 1 <= m -> m <= ldc -> same = false ->
  updated o m n same_as same_as alpha P beta (castto up junk m m n c ldc) m cf' ->
  updated o m n up down alpha P beta c ldc (back same down m n cf' m c ldc).
Proof.
  intros Hm Hl Hs [H1 _]. unfold back. rewrite Hs. split.
  - intros i j Hi Hj. rewrite blk_in, blk_div, blk_mod by lia. rewrite H1 by auto.
    rewrite cast_stored by lia. reflexivity.
  - intros q Hq. rewrite blk_out by auto. reflexivity.
Qed.
Lemma updated_same m n alpha P beta c ldc c' : same = true ->
  updated o m n same_as same_as alpha P beta c ldc c' -> updated o m n up down alpha P beta c ldc c'.
Proof.
  intros Hs [H1 H2]. split; auto. intros i j Hi Hj. rewrite H1 by auto.
  rewrite up_same, down_same by auto. reflexivity.
Qed.
Lemma updated_none m n P alpha beta c ldc :
  (forall i j, i < m -> j < n -> alpha *k P i j = k0 o) -> (0 < m -> 0 < n -> beta = k1 o) ->
  updated o m n up down alpha P beta c ldc c.
Proof.
  intros HP Hbt. split; auto. intros i j Hi Hj. rewrite HP, Hbt by lia.
  transitivity (down (up (c (j * ldc + i)))); [rewrite down_up; reflexivity|]. f_equal. ring.
Qed.
Lemma quick_exit m n k alpha (A B : mx) : ((k =? 0) || iszero o alpha) = true ->
  forall i j, i < m -> j < n -> alpha *k mul o k A B i j = k0 o.
Proof.
  intros E i j _ _. apply orb_true_iff in E. destruct E as [E|E].
  - apply Nat.eqb_eq in E. subst k. unfold mul. cbn. ring.
  - apply (iszero_true o L) in E. subst alpha. ring.
Qed.

Theorem C55_gemm_dhd : forall ta tb m n k alpha a lda b ldb beta c ldc,
  m < bmax -> n < bmax -> k < bmax ->
  (if isN ta then m else k) <= lda <= bmax -> (if isN tb then k else n) <= ldb <= bmax -> m <= ldc <= bmax ->
  (cplx = true -> m = 1 -> n = 1 -> ta = trC \/ tb = trC) ->
  exists c', gemm_dhd o cplx bmax kcode same up down junk ta tb m n k alpha a lda b ldb beta c ldc = Done c' /\
    updated o m n up down alpha (mul o k (op o ta (converted up (stored a lda))) (op o tb (stored b ldb)))
      beta c ldc c'.
Proof.
  intros ta tb m n k alpha a lda b ldb beta c ldc Hm Hn Hk Hla Hlb Hlc Hx. unfold gemm_dhd.
  destruct ((m =? 0) || (n =? 0) || _) eqn:E0.
  { exists c. split; [reflexivity|]. apply orb_true_iff in E0. destruct E0 as [E0|E0].
    - apply orb_true_iff in E0. rewrite !Nat.eqb_eq in E0. apply updated_none; lia.
    - apply andb_true_iff in E0. destruct E0 as [E1 E2]. apply (isone_true o L) in E2.
      apply updated_none; auto. apply quick_exit. auto. }
  apply orb_false_iff in E0. destruct E0 as [E0 _]. apply orb_false_iff in E0.
  rewrite !Nat.eqb_neq in E0. unfold astype. destruct kinds as [Es|Es]; rewrite Es.
  - destruct (gemm_ok o L cplx bmax kcode Hb Hreal ta tb m n k alpha a lda b ldb beta c ldc) as (c' & -> & Hc); auto.
    exists c'. split; [reflexivity|]. apply updated_same; auto.
    eapply updated_P; [|exact Hc]. intros i j Hi Hj. unfold mul. apply sum_ext. intros l Hl. f_equal.
    apply (op_ext ta m k); auto. intros. unfold converted. rewrite up_same; auto.
  - destruct (gemm_ok o L cplx bmax kcode Hb Hreal ta tb m n k alpha
                (castto up junk (if isN ta then m else k) (if isN ta then m else k) (if isN ta then k else m) a lda)
                (if isN ta then m else k) b ldb beta (castto up junk m m n c ldc) m) as (c' & -> & Hc); auto;
      try (destruct (isN ta); lia); try lia.
    exists (back false down m n c' m c ldc). split; [reflexivity|].
    replace (back false down m n c' m c ldc) with (back same down m n c' m c ldc) by (rewrite Es; reflexivity).
    apply back_ok; auto; try lia.
    eapply updated_P; [|exact Hc]. intros i j Hi Hj. unfold mul. apply sum_ext. intros l Hl. f_equal.
    apply (op_ext ta m k); auto. intros r s Hr Hs. unfold stored at 1. rewrite cast_stored by auto. reflexivity.
Qed.

(** The loop over the rows of Num_gemm_ddh. *)
Lemma ddh_stream m n k alpha a lda b ldb ldc ldf : m < bmax -> n < bmax -> k < bmax -> same = false ->
  k <= lda <= bmax -> k <= ldb <= bmax -> m <= ldc <= bmax -> ldf <= bmax -> forall fuel i kk beta c,
  i < k -> kk <= ldf -> 1 <= kk <= k - i -> k - i <= fuel ->
  exists c', ddh_from o cplx bmax kcode same up junk fuel trC trN m n k alpha a lda b ldb beta c ldc m n ldf i kk = Done c' /\
    updated o m n same_as same_as alpha
      (mul o (k - i) (adj o (converted up (stored (shift i a) lda))) (converted up (stored (shift i b) ldb)))
      beta c ldc c'.
Proof.
  intros Hm Hn Hk Hs Hla Hlb Hlc Hldf. induction fuel as [|f IH]; intros i kk beta c Hi Hkf Hkk Hf; [lia|].
  cbn [ddh_from]. rewrite (proj2 (Nat.ltb_lt i k)) by auto. rewrite Hs. cbn beta iota.
  destruct (gemm_ok o L cplx bmax kcode Hb Hreal trC trN m n kk alpha
              (castto up junk ldf kk m (shift i a) lda) ldf (castto up junk ldf kk n (shift i b) ldb) ldf beta c ldc)
    as (c1 & -> & Hc1); auto; cbn [isN]; try lia.
  cbn [rbind].
  assert (Hc1' : updated o m n same_as same_as alpha
      (mul o kk (adj o (converted up (stored (shift i a) lda))) (converted up (stored (shift i b) ldb))) beta c ldc c1).
  { eapply updated_P; [|exact Hc1]. intros r s Hr Hs'. unfold mul. apply sum_ext. intros l Hl.
    cbn [op]. unfold adj, stored at 1 2. rewrite !cast_stored by lia. reflexivity. }
  destruct (Nat.eq_dec (i + kk) k) as [E|E].
  - assert (Hd : forall kk', ddh_from o cplx bmax kcode false up junk f trC trN m n k alpha a lda b ldb (k1 o) c1 ldc m n ldf
                   (i + kk) kk' = Done c1).
    { intros. destruct f; cbn [ddh_from]; auto. rewrite (proj2 (Nat.ltb_ge (i + kk) k)) by lia. reflexivity. }
    rewrite Hd. exists c1. split; [reflexivity|]. replace (k - i) with kk by lia. exact Hc1'.
  - destruct (IH (i + kk) (Nat.min kk (k - (i + kk))) (k1 o) c1) as (c2 & E2 & Hc2); try lia.
    rewrite Hs in E2. rewrite E2. clear E2.
    exists c2. split; [reflexivity|]. destruct Hc1' as [H1 H1']. destruct Hc2 as [H2 H2']. split.
    + intros r s Hr Hs'. rewrite H2, H1 by auto. unfold same_as.
      replace (k - i) with (kk + (k - (i + kk))) by lia. unfold mul. rewrite (sum_split o L).
      match goal with |- _ = alpha *k (?S1 +k ?S2) +k _ => set (s1 := S1); set (s2 := S2) end.
      match goal with |- alpha *k ?S3 +k _ = _ => assert (Hss : S3 = s2) end.
      { apply sum_ext. intros l _. unfold adj, converted, stored, shift.
        do 2 f_equal; [f_equal|]; f_equal; lia. }
      rewrite Hss. fold s1. ring.
    + intros q Hq. rewrite H2', H1' by auto. reflexivity.
Qed.

Theorem C55_gemm_ddh : forall ta tb m n k alpha a lda b ldb beta c ldc, 1 <= pbs ->
  m < bmax -> n < bmax -> k < bmax ->
  (if isN ta then m else k) <= lda <= bmax -> (if isN tb then k else n) <= ldb <= bmax -> m <= ldc <= bmax ->
  (same = true \/ ta = trC /\ tb = trN) ->
  (cplx = true -> m = 1 -> n = 1 -> ta = trC \/ tb = trC) ->
  (1 <= k \/ beta = k1 o) ->
  exists c', gemm_ddh o cplx bmax pbs kcode same up junk ta tb m n k alpha a lda b ldb beta c ldc = Done c' /\
    updated o m n same_as same_as alpha
      (mul o k (op o ta (converted up (stored a lda))) (op o tb (converted up (stored b ldb)))) beta c ldc c'.
Proof.
  intros ta tb m n k alpha a lda b ldb beta c ldc Hp Hm Hn Hk Hla Hlb Hlc Ht Hx Hk1. unfold gemm_ddh.
  destruct ((m =? 0) || (n =? 0) || _) eqn:E0.
  { exists c. split; [reflexivity|]. split; auto. intros i j Hi Hj. unfold same_as.
    apply orb_true_iff in E0. destruct E0 as [E0|E0].
    - apply orb_true_iff in E0. rewrite !Nat.eqb_eq in E0. lia.
    - apply andb_true_iff in E0. destruct E0 as [E1 E2]. apply (isone_true o L) in E2. subst beta.
      rewrite (quick_exit m n k) by auto. ring. }
  apply orb_false_iff in E0. destruct E0 as [E0 E1]. apply orb_false_iff in E0.
  rewrite !Nat.eqb_neq in E0.
  assert (Hkp : 1 <= k).
  { destruct Hk1 as [?|Hk1]; auto. destruct (Nat.eq_dec k 0) as [->|]; [|lia].
    cbn [Nat.eqb orb andb] in E1. rewrite Hk1 in E1. unfold isone in E1.
    assert (kzero o (ksub o (k1 o) (k1 o)) = true) by (apply (l_zero o L); ring). congruence. }
  destruct kinds as [Es|Es]; rewrite Es.
  - cbn [negb andb]. destruct k as [|k']; [lia|]. set (k := S k') in *.
    change (ddh_from o cplx bmax kcode true up junk k ta tb m n k alpha a lda b ldb beta c ldc
              (if isN ta then k else m) (if isN tb then n else k) k 0 k)
      with (rbind (gemm o cplx bmax kcode ta tb m n k alpha (shift 0 a) lda (shift 0 b) ldb beta c ldc)
             (fun c' => ddh_from o cplx bmax kcode true up junk k' ta tb m n k alpha a lda b ldb (k1 o) c' ldc
                (if isN ta then k else m) (if isN tb then n else k) k (0 + k) (Nat.min k (k - (0 + k))))).
    destruct (gemm_ok o L cplx bmax kcode Hb Hreal ta tb m n k alpha (shift 0 a) lda (shift 0 b) ldb beta c ldc)
      as (c' & -> & Hc); auto.
    cbn [rbind].
    assert (Hd : forall kk', ddh_from o cplx bmax kcode true up junk k' ta tb m n k alpha a lda b ldb (k1 o) c' ldc
                (if isN ta then k else m) (if isN tb then n else k) k (0 + k) kk' = Done c').
    { intros. destruct k' as [|k'']; cbn [ddh_from]; auto. rewrite (proj2 (Nat.ltb_ge (0 + k) k)) by lia. reflexivity. }
    rewrite Hd. exists c'. split; [reflexivity|].
    eapply updated_P; [|exact Hc]. intros i j Hi Hj. unfold mul. apply sum_ext. intros l Hl. f_equal.
    + apply (op_ext ta m k); auto. intros. unfold converted, stored, shift. rewrite up_same; auto.
    + apply (op_ext tb k n); auto. intros. unfold converted, stored, shift. rewrite up_same; auto.
  - destruct Ht as [Ht|[-> ->]]; [congruence|]. cbn [negb andb isC isN] in *.
    set (kk := if pbs <? k then pbs else k).
    assert (Hkk : 1 <= kk <= k).
    { unfold kk. destruct (pbs <? k) eqn:E; [apply Nat.ltb_lt in E|]; lia. }
    destruct (ddh_stream m n k alpha a lda b ldb ldc kk Hm Hn Hk Es Hla Hlb Hlc ltac:(lia) k 0 kk beta c)
      as (c' & Hc & Hu); try lia.
    rewrite Es in Hc. rewrite Hc. exists c'. split; [reflexivity|]. rewrite Nat.sub_0_r in Hu. exact Hu.
Qed.

(** The Gram matrix of two blocks. *)
Theorem C55_gramm : forall x m n ldx y ldy alpha h ldh, 1 <= pbs ->
  m < bmax -> n < bmax -> m <= ldx <= bmax -> m <= ldy <= bmax -> n <= ldh <= bmax ->
  (1 <= m \/ alpha = k1 o) ->
  exists h', gramm_ddh o cplx bmax pbs kcode same up junk x m n ldx y ldy alpha h ldh = Done h' /\
    updated o n n same_as same_as (k1 o)
      (mul o m (adj o (converted up (stored x ldx))) (converted up (stored y ldy))) alpha h ldh h'.
Proof.
  intros. unfold gramm_ddh. apply C55_gemm_ddh; cbn [isN]; auto.
Qed.

(** H projected on a block of coefficients. *)
Theorem C55_submatrix : forall x nX ldX h nH ldH r ldR, nX < bmax -> nH < bmax -> 1 <= nX -> 1 <= nH ->
  nH <= ldX <= bmax -> nH <= ldH <= bmax -> nX <= ldR <= bmax ->
  (cplx = true -> nH = 1 -> nX <> 1) ->
  exists r', submatrix o cplx bmax kcode junk x nX ldX h nH ldH r ldR = Done r' /\
    (forall i j, i < nX -> j < nX ->
       r' (j * ldR + i) = mul o nH (adj o (stored x ldX)) (mul o nH (stored h ldH) (stored x ldX)) i j) /\
    (forall p, (forall i j, i < nX -> j < nX -> p <> j * ldR + i) -> r' p = r p).
Proof.
  intros x nX ldX h nH ldH r ldR HX HH HX1 HH1 HlX HlH HlR Hc. unfold submatrix.
  rewrite (proj2 (Nat.eqb_neq nH 0)), (proj2 (Nat.eqb_neq nX 0)) by lia. cbn [orb].
  destruct (gemm_ok o L cplx bmax kcode Hb Hreal trN trN nH nX nH (k1 o) h ldH x ldX (k0 o)
              (zero_matrix o junk nH nX nH) nH) as (w & -> & [Hw _]); cbn [isN]; auto; try lia.
  { intros H1 H2 H3. exfalso. apply (Hc H1 H2 H3). }
  cbn [rbind].
  destruct (gemm_ok o L cplx bmax kcode Hb Hreal trC trN nX nX nH (k1 o) x ldX w nH (k0 o)
              (zero_matrix o r nX nX ldR) ldR) as (r' & -> & [Hr1 Hr2]); cbn [isN]; auto; try lia.
  exists r'. split; [reflexivity|]. split.
  - intros i j Hi Hj. rewrite Hr1 by auto. unfold same_as. cbn [op]. unfold mul at 1 2.
    match goal with |- k1 o *k ?S +k k0 o *k ?z = ?T => transitivity S; [ring|] end.
    apply sum_ext. intros l Hl. f_equal. unfold stored at 1. rewrite Hw by auto. unfold same_as. cbn [op]. ring.
  - intros p Hp'. rewrite Hr2 by auto. unfold zero_matrix. rewrite blk_out by (auto; lia). reflexivity.
Qed.

(** ** Products with a vector and conversion. *)
Lemma gemv_m_ok t m n alpha a lda x incx beta y incy : m < bmax -> n < bmax -> m <= lda ->
  1 <= incx <= bmax -> 1 <= incy <= bmax ->
  (same = true -> lda = m \/ n <= 1) ->
  (cplx = true -> t = trC \/ (if isN t then m else n) <> 1) ->
  exists y', gemv o cplx bmax kcode t m n alpha (Datatypes.fst (astype same up junk m n a lda)) m x incx beta y incy = Done y' /\
    updated o 1 (if isN t then m else n) same_as same_as alpha
      (fun _ j => mul o (if isN t then n else m) (op o t (converted up (stored a lda))) (strided x incx) j 0) beta y incy y'.
Proof.
  intros Hm Hn Hl Hix Hiy Hld Hx.
  destruct (gemv_ok o L cplx bmax kcode Hb Hreal t m n alpha (Datatypes.fst (astype same up junk m n a lda)) m x incx beta y incy)
    as (y' & -> & Hy); auto; try lia.
  exists y'. split; [reflexivity|]. eapply updated_P; [|exact Hy]. intros i0 j _ Hj. unfold mul. apply sum_ext.
  intros l Hl'. f_equal. apply (op_ext t (if isN t then m else n) (if isN t then n else m)); auto.
  intros r s Hr Hs. assert (r < m /\ s < n) as [Hr' Hs'] by (destruct (isN t); auto). clear Hr Hs.
  unfold astype. destruct kinds as [Es|Es]; rewrite Es; cbn [Datatypes.fst].
  - unfold converted, stored. rewrite up_same by auto.
    destruct (Hld Es) as [->|Hn1]; auto. replace s with 0 by lia. reflexivity.
  - unfold stored at 1. rewrite cast_stored by lia. reflexivity.
Qed.

Theorem C55_gemv_ddh : forall t m n alpha a lda x incx beta y incy, m < bmax -> n < bmax -> m <= lda ->
  1 <= incx -> 1 <= incy <= bmax ->
  (same = true -> (lda = m \/ n <= 1) /\ incx = 1) ->
  (cplx = true -> t = trC \/ (if isN t then m else n) <> 1) ->
  exists y', gemv_ddh o cplx bmax kcode same up junk t m n alpha a lda x incx beta y incy = Done y' /\
    updated o 1 (if isN t then m else n) same_as same_as alpha
      (fun _ j => mul o (if isN t then n else m) (op o t (converted up (stored a lda)))
                    (converted up (strided x incx)) j 0) beta y incy y'.
Proof.
  intros t m n alpha a lda x incx beta y incy Hm Hn Hl Hix Hiy Hld Hx. unfold gemv_ddh.
  destruct (astype same up junk m n a lda) as [af laf] eqn:Ea.
  destruct (astype same up junk 1 (if isN t then n else m) x incx) as [xf lxf] eqn:Exf.
  destruct (gemv_m_ok t m n alpha a lda xf 1 beta y incy) as (y' & Hy & Hu); auto; try lia.
  { intros Hs. apply Hld. auto. }
  rewrite Ea in Hy. cbn [Datatypes.fst] in Hy. rewrite Hy. exists y'. split; [reflexivity|].
  eapply updated_P; [|exact Hu]. intros i0 j _ Hj. unfold mul. apply sum_ext. intros l Hl'. f_equal.
  unfold strided, converted. rewrite Nat.mul_1_r. unfold astype in Exf. destruct kinds as [Es|Es]; rewrite Es in Exf.
  - injection Exf as <- <-. rewrite up_same by auto. destruct (Hld Es) as [_ ->]. rewrite Nat.mul_1_r. reflexivity.
  - injection Exf as <- <-. pose proof (cast_stored 1 1 (if isN t then n else m) x incx 0 l ltac:(lia) ltac:(lia) Hl') as E.
    rewrite Nat.mul_1_r, !Nat.add_0_r in E. exact E.
Qed.

Theorem C55_gemv_dhd : forall t m n alpha a lda x incx beta y incy, m < bmax -> n < bmax -> m <= lda ->
  1 <= incx <= bmax -> 1 <= incy <= bmax ->
  (same = true -> lda = m \/ n <= 1) ->
  (cplx = true -> t = trC \/ (if isN t then m else n) <> 1) ->
  exists y', gemv_dhd o cplx bmax kcode same up down junk t m n alpha a lda x incx beta y incy = Done y' /\
    updated o 1 (if isN t then m else n) up down alpha
      (fun _ j => mul o (if isN t then n else m) (op o t (converted up (stored a lda))) (strided x incx) j 0) beta y incy y'.
Proof.
  intros t m n alpha a lda x incx beta y incy Hm Hn Hl Hix Hiy Hld Hx. unfold gemv_dhd.
  destruct (astype same up junk m n a lda) as [af laf] eqn:Ea.
  destruct (astype same up junk 1 (if isN t then m else n) y incy) as [yf lyf] eqn:Ey.
  assert (Hlyf : 1 <= lyf <= bmax).
  { unfold astype in Ey. destruct kinds as [Es|Es]; rewrite Es in Ey; injection Ey as <- <-; lia. }
  destruct (gemv_m_ok t m n alpha a lda x incx beta yf lyf) as (y' & Hy & Hu); auto.
  rewrite Ea in Hy. cbn [Datatypes.fst] in Hy. rewrite Hy. cbn [rbind].
  eexists. split; [reflexivity|]. unfold astype in Ey. destruct kinds as [Es|Es]; rewrite Es in Ey |- *.
  - injection Ey as <- <-. unfold back. apply updated_same; auto.
  - injection Ey as <- <-. match goal with |- context [back false down ?a1 ?a2 ?a3 ?a4 ?a5 ?a6] =>
      replace (back false down a1 a2 a3 a4 a5 a6) with (back same down a1 a2 a3 a4 a5 a6) by (rewrite Es; reflexivity) end.
    apply back_ok; auto; lia.
Qed.
End Conv.
