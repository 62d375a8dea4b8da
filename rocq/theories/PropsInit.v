(** Property C21: the initial basis. *)
From Coq Require Import ZArith List Bool Lia.
From Verif Require Import Base InitModel.
Open Scope Z_scope.

Section C21.
Context {col : Type}.
Variable A : col -> col.
Variable orth_col : nat -> (Z -> col) -> Z -> col.
Variable orth_rank : nat -> (Z -> col) -> Z.
Variable orth_err : nat -> Z.
Variable rand_col : nat -> Z -> col.
Variable matvec_err : nat -> Z.
Notation krylov_loop := (krylov_loop A orth_col orth_rank orth_err rand_col matvec_err).
Notation init_block_krylov := (init_block_krylov A orth_col orth_rank orth_err rand_col matvec_err).
Notation init_basis := (init_basis A orth_col orth_rank orth_err rand_col matvec_err).
Notation ortho := (ortho orth_col orth_rank orth_err).

Lemma in_range_true : forall a b j, in_range a b j = true <-> a <= j <= b.
Proof. intros. unfold in_range. rewrite andb_true_iff, !Z.leb_le. tauto. Qed.
Lemma in_range_false : forall a b j, ~ (a <= j <= b) -> in_range a b j = false.
Proof. intros. destruct (in_range a b j) eqn:E; auto. apply in_range_true in E. tauto. Qed.
Ltac rng := repeat match goal with
  | |- context [in_range ?a ?b ?j] =>
      first [ rewrite (in_range_false a b j) by lia
            | rewrite (proj2 (in_range_true a b j)) by lia ]
  end.

Lemma ortho_rank : forall b1 b2 (s : @ist col) e nV s', ortho b1 b2 s = (e, nV, s') -> b1 <= b2 + 1 ->
  b1 <= nV <= b2 + 1.
Proof.
  intros b1 b2 s e nV s' E H. unfold InitModel.ortho in E. injection E as _ <- _.
  destruct (Z.ltb_spec b2 b1); lia.
Qed.

Lemma krylov_loop_ok : forall fuel bs dv2 i m s s' a,
  krylov_loop fuel bs dv2 i m s = Some (0, s') ->
  1 <= bs -> a <= i - bs -> i <= dv2 + 1 -> m = Z.min bs (dv2 - i + 1) ->
  (forall j, a <= j < i - bs -> iW s j = A (iV s j)) ->
  (forall j, a <= j <= dv2 - bs -> iW s' j = A (iV s' j)) /\
  (forall j, j < i \/ dv2 < j -> iV s' j = iV s j) /\
  (forall j, j < i - bs \/ dv2 - bs < j -> iW s' j = iW s j) /\
  imv s' = imv s + (dv2 + 1 - i).
Proof.
  induction fuel as [|f IH]; intros bs dv2 i m s s' a R B1 B2 B3 M C; [discriminate|].
  cbn [InitModel.krylov_loop] in R. destruct (Z.leb_spec i dv2).
  2:{ injection R as <-. repeat split; auto; [intros; apply C; lia | lia]. }
  assert (MP : 1 <= m) by lia.
  unfold matvec_V in R. destruct (Z.leb_spec m 0); [lia|].
  destruct (negb (matvec_err (tick s) =? 0)) eqn:ME.
  { injection R as E _. rewrite E in ME. discriminate. }
  set (s1 := mkIst _ _ _ _) in R.
  set (s2 := copy_VW i (i - bs) m s1) in R.
  destruct (ortho i (i + m - 1) s2) as [[e2 nV] s3] eqn:O1.
  destruct (Z.eqb_spec e2 0) as [->|]; cbn [negb] in R; [|injection R; congruence].
  pose proof (ortho_rank _ _ _ _ _ _ O1 ltac:(lia)) as RK.
  set (s4 := randomize rand_col nV (i + m - 1) s3) in R.
  destruct (ortho nV (i + m - 1) s4) as [[e3 nV'] s5] eqn:O2.
  destruct (Z.eqb_spec e3 0) as [->|]; cbn [negb] in R; [|injection R; congruence].
  destruct (Z.eqb_spec nV' (i + m)) as [->|]; cbn [negb] in R; [|injection R; congruence].
  assert (V5 : forall j, j < i \/ i + m - 1 < j -> iV s5 j = iV s j).
  { intros j J. unfold InitModel.ortho in O1, O2. injection O2 as _ _ <-. injection O1 as _ _ <-.
    cbn [iV set_V]. rng. unfold s4. cbn [iV set_V randomize]. rng.
    unfold s2, copy_VW, s1. cbn [iV]. rng. reflexivity. }
  assert (W5 : forall j, iW s5 j = if in_range (i - bs) (i - bs + m - 1) j then A (iV s j) else iW s j).
  { intros j. unfold InitModel.ortho in O1, O2. injection O2 as _ _ <-. injection O1 as _ _ <-.
    cbn [iW set_V]. unfold s4. cbn [iW set_V randomize]. unfold s2, copy_VW, s1. cbn [iV iW].
    destruct (in_range (i - bs) (i - bs + m - 1) j) eqn:E; auto.
    apply in_range_true in E. rng. do 2 f_equal. lia. }
  assert (MV5 : imv s5 = imv s + m).
  { unfold InitModel.ortho in O1, O2. injection O2 as _ _ <-. injection O1 as _ _ <-. reflexivity. }
  destruct (IH bs dv2 (i + m) _ s5 s' a R B1) as (C1 & V1 & W1 & M1); try lia.
  { intros j J. rewrite W5, V5 by lia. destruct (in_range (i - bs) (i - bs + m - 1) j) eqn:E; auto.
    apply C. destruct (Z_lt_le_dec j (i - bs)); [lia|].
    rewrite (proj2 (in_range_true _ _ j)) in E by lia. discriminate. }
  repeat split; auto.
  - intros j J. rewrite V1 by lia. apply V5. lia.
  - intros j J. rewrite W1 by lia. rewrite W5. rng. reflexivity.
  - lia.
Qed.

Lemma krylov_loop_ends : forall fuel bs dv2 i m s,
  (Z.to_nat (dv2 + 1 - i) < fuel)%nat -> 1 <= bs -> i <= dv2 + 1 -> m = Z.min bs (dv2 - i + 1) ->
  krylov_loop fuel bs dv2 i m s <> None.
Proof.
  induction fuel as [|f IH]; intros bs dv2 i m s F B1 B3 M; [lia|].
  cbn [InitModel.krylov_loop]. destruct (Z.leb_spec i dv2); [|discriminate].
  destruct (matvec_V _ _ _ _ _ s) as [e1 s1]. destruct (negb (e1 =? 0)); [discriminate|].
  destruct (ortho i _ _) as [[e2 nV] s3]. destruct (negb (e2 =? 0)); [discriminate|].
  destruct (ortho nV _ _) as [[e3 nV'] s5]. destruct (negb (e3 =? 0)); [discriminate|].
  destruct (negb (nV' =? i + m)); [discriminate|]. apply IH; lia.
Qed.

Lemma krylov_ok : forall mb dv1 dv2 s s',
  init_block_krylov mb dv1 dv2 s = Some (0, s') -> 1 <= mb ->
  (forall j, dv1 <= j <= dv2 -> iW s' j = A (iV s' j)) /\
  (forall j, j < dv1 \/ dv2 < j -> iV s' j = iV s j) /\
  (forall j, j < dv1 \/ dv2 < j -> iW s' j = iW s j) /\
  imv s' = imv s + Z.max 0 (dv2 + 1 - dv1).
Proof.
  intros mb dv1 dv2 s s' R MB. unfold InitModel.init_block_krylov in R.
  destruct (Z.leb_spec (dv2 - dv1 + 1) 0).
  { injection R as <-. repeat split; auto; [intros; lia | lia]. }
  set (bs := if dv2 - dv1 + 1 <=? mb then 1 else mb) in R.
  assert (BS : 1 <= bs <= dv2 - dv1 + 1)
    by (unfold bs; destruct (Z.leb_spec (dv2 - dv1 + 1) mb); lia).
  set (s1 := randomize rand_col dv1 (dv1 + bs - 1) s) in R.
  destruct (ortho dv1 (dv1 + bs - 1) s1) as [[e nV] s2] eqn:O1.
  destruct (Z.eqb_spec e 0) as [->|]; cbn [negb] in R; [|injection R; congruence].
  destruct (negb (nV =? dv1 + bs)); [discriminate|].
  destruct (krylov_loop _ bs dv2 (dv1 + bs) _ s2) as [[e s3]|] eqn:L; [|discriminate].
  cbn [bind] in R. destruct (Z.eqb_spec e 0) as [->|]; cbn [negb] in R; [|injection R; congruence].
  assert (V2 : forall j, j < dv1 \/ dv2 < j -> iV s2 j = iV s j).
  { intros j J. unfold InitModel.ortho in O1. injection O1 as _ _ <-.
    cbn [iV set_V]. rng. unfold s1. cbn [iV set_V randomize]. rng. reflexivity. }
  assert (W2 : iW s2 = iW s) by (unfold InitModel.ortho in O1; injection O1 as _ _ <-; reflexivity).
  assert (M2 : imv s2 = imv s) by (unfold InitModel.ortho in O1; injection O1 as _ _ <-; reflexivity).
  destruct (krylov_loop_ok _ _ _ _ _ _ _ dv1 L) as (C & V3 & W3 & M3); try lia.
  unfold matvec_W in R. destruct (Z.leb_spec bs 0); [lia|].
  injection R as _ <-. cbn [iV iW imv].
  repeat split.
  - intros j J. destruct (in_range _ _ j) eqn:IR.
    + do 2 f_equal. lia.
    + apply C. destruct (Z_lt_le_dec (dv2 - bs) j); [|lia].
      rewrite (proj2 (in_range_true _ _ j)) in IR by lia. discriminate.
  - intros j J. rewrite V3 by lia. now apply V2.
  - intros j J. rng. rewrite W3 by lia. now rewrite W2.
  - lia.
Qed.

(** Whatever the orthogonalization, the random numbers and the callbacks do, if
    building the initial basis succeeds then every basis vector has its matrix
    product in the matching column of W, one product was computed per generated
    column, the basis fits the space and its allocation, and the guesses still to
    be used are exactly the ones not yet taken. *)
Theorem C21_products_match : forall p guess s out,
  1 <= q_maxBlockSize p -> 0 <= q_initSize p -> 0 <= q_minRestartSize p <= q_maxBasisSize p ->
  q_maxBlockSize p <= q_maxBasisSize p -> 0 <= q_numOrthoConst p <= q_n p ->
  init_basis p guess s = Some out -> io_code out = 0 ->
  (forall j, 0 <= j < io_basis out -> iW (io_st out) j = A (iV (io_st out) j)) /\
  0 <= io_basis out <= Z.min (q_maxBasisSize p) (q_n p - q_numOrthoConst p) /\
  io_next out + io_guesses out = q_numOrthoConst p + q_initSize p /\
  q_numOrthoConst p <= io_next out /\ 0 <= io_guesses out /\
  (forall j, q_maxBasisSize p <= j ->
     iV (io_st out) j = iV s j /\ iW (io_st out) j = iW s j).
Proof.
  intros p guess s out MB IS RS MBB OC R Z0. unfold InitModel.init_basis in R.
  set (i0 := if q_locking p then _ else _) in R.
  set (is := Z.max 0 (Z.min (q_n p - q_numOrthoConst p) i0)) in R.
  assert (I0 : i0 <= q_initSize p /\ i0 <= q_maxBasisSize p)
    by (unfold i0; destruct (q_locking p); lia).
  assert (ISB : 0 <= is <= q_initSize p /\ is <= q_maxBasisSize p /\ is <= q_n p - q_numOrthoConst p) by lia.
  set (rd0 := if q_mode p =? init_krylov then 0 else _) in R.
  set (rd := Z.max 0 _) in R.
  assert (RD0 : is + rd0 <= q_maxBasisSize p)
    by (unfold rd0; destruct (q_mode p =? init_krylov); [lia|]; destruct (q_mode p =? init_random); lia).
  assert (RD : 0 <= rd /\ is + rd <= q_maxBasisSize p /\ is + rd <= q_n p - q_numOrthoConst p) by lia.
  set (s1 := set_V s _) in R.
  set (s2 := randomize rand_col is (is + rd - 1) s1) in R.
  destruct (ortho 0 (is + rd - 1) s2) as [[e nB] s3] eqn:O1.
  pose proof (ortho_rank _ _ _ _ _ _ O1 ltac:(lia)) as RK.
  destruct (Z.eqb_spec e 0) as [->|NE]; cbn [negb] in R.
  2:{ injection R as <-. contradiction. }
  assert (V3 : forall j, q_maxBasisSize p <= j -> iV s3 j = iV s j).
  { intros j J. unfold InitModel.ortho in O1. injection O1 as _ _ <-.
    cbn [iV set_V]. rng. unfold s2. cbn [iV set_V randomize]. rng. unfold s1. cbn [iV set_V]. rng.
    reflexivity. }
  assert (W3 : iW s3 = iW s) by (unfold InitModel.ortho in O1; injection O1 as _ _ <-; reflexivity).
  destruct (matvec_W A matvec_err 0 0 nB s3) as [e4 s4] eqn:MV.
  destruct (Z.eqb_spec e4 0) as [->|NE]; cbn [negb] in R.
  2:{ injection R as <-. contradiction. }
  assert (S4 : (forall j, 0 <= j < nB -> iW s4 j = A (iV s4 j)) /\
               (forall j, q_maxBasisSize p <= j -> iV s4 j = iV s j /\ iW s4 j = iW s j)).
  { unfold matvec_W in MV. destruct (Z.leb_spec nB 0).
    - injection MV as <-. split; [intros; lia|]. intros j J. rewrite V3, W3 by lia. auto.
    - injection MV as _ <-. cbn [iV iW]. split.
      + intros j J. rng. do 2 f_equal. lia.
      + intros j J. rng. rewrite V3, W3 by lia. auto. }
  destruct S4 as [C4 F4].
  assert (G : q_numOrthoConst p + is + (q_initSize p - is) = q_numOrthoConst p + q_initSize p) by lia.
  destruct (q_mode p =? init_krylov).
  - set (r := Z.min _ _) in R.
    destruct (init_block_krylov _ nB (r - 1) s4) as [[e5 s5]|] eqn:K; [|discriminate].
    cbn [bind] in R. destruct (Z.eqb_spec e5 0) as [->|NE]; cbn [negb] in R.
    2:{ injection R as <-. contradiction. }
    injection R as <-. cbn [io_basis io_st io_next io_guesses].
    destruct (krylov_ok _ _ _ _ _ K MB) as (C5 & V5 & W5 & _).
    repeat split; try lia.
    + intros j J. destruct (Z_lt_le_dec j nB).
      * rewrite V5, W5 by lia. apply C4. lia.
      * apply C5. lia.
    + rewrite V5 by lia. now apply F4.
    + rewrite W5 by lia. now apply F4.
  - injection R as <-. cbn [io_basis io_st io_next io_guesses].
    repeat split; try lia; auto; now apply F4.
Qed.

(** Number of products: one per column of the basis generated. *)
Theorem C21_products_counted : forall p guess s out,
  1 <= q_maxBlockSize p -> 0 <= q_initSize p -> 0 <= q_numOrthoConst p <= q_n p ->
  q_mode p <> init_krylov \/ q_initSize p <= q_minRestartSize p ->
  0 <= q_minRestartSize p ->
  init_basis p guess s = Some out -> io_code out = 0 ->
  imv (io_st out) = imv s + io_basis out.
Proof.
  intros p guess s out MB IS OC MD RS R Z0. unfold InitModel.init_basis in R.
  set (i0 := if q_locking p then _ else _) in R.
  set (is := Z.max 0 (Z.min (q_n p - q_numOrthoConst p) i0)) in R.
  assert (I0 : i0 <= q_initSize p) by (unfold i0; destruct (q_locking p); lia).
  set (rd0 := if q_mode p =? init_krylov then 0 else _) in R.
  set (rd := Z.max 0 _) in R.
  set (s1 := set_V s _) in R.
  set (s2 := randomize rand_col is (is + rd - 1) s1) in R.
  destruct (ortho 0 (is + rd - 1) s2) as [[e nB] s3] eqn:O1.
  pose proof (ortho_rank _ _ _ _ _ _ O1 ltac:(lia)) as RK.
  destruct (Z.eqb_spec e 0) as [->|NE]; cbn [negb] in R.
  2:{ injection R as <-. contradiction. }
  assert (M3 : imv s3 = imv s) by (unfold InitModel.ortho in O1; injection O1 as _ _ <-; reflexivity).
  destruct (matvec_W A matvec_err 0 0 nB s3) as [e4 s4] eqn:MV.
  destruct (Z.eqb_spec e4 0) as [->|NE]; cbn [negb] in R.
  2:{ injection R as <-. contradiction. }
  assert (M4 : imv s4 = imv s + nB).
  { unfold matvec_W in MV. destruct (Z.leb_spec nB 0).
    - injection MV as <-. lia.
    - injection MV as _ <-. cbn [imv]. lia. }
  destruct (Z.eqb_spec (q_mode p) init_krylov) as [K0|K0].
  - set (r := Z.min _ _) in R.
    destruct (init_block_krylov _ nB (r - 1) s4) as [[e5 s5]|] eqn:K; [|discriminate].
    cbn [bind] in R. destruct (Z.eqb_spec e5 0) as [->|NE]; cbn [negb] in R.
    2:{ injection R as <-. contradiction. }
    injection R as <-. cbn [io_basis io_st io_next io_guesses].
    destruct (krylov_ok _ _ _ _ _ K MB) as (_ & _ & _ & M5).
    assert (rd = 0) by (unfold rd, rd0; lia).
    destruct MD; [contradiction|]. lia.
  - injection R as <-. cbn [io_basis io_st]. exact M4.
Qed.

(** The user's guesses are the ones used: as many as fit are handed in order to
    the first orthogonalization, whose result starts the basis. *)
Theorem C21_guesses_used : forall p guess s out,
  1 <= q_maxBlockSize p -> 0 <= q_initSize p -> 0 <= q_minRestartSize p ->
  0 <= q_maxBasisSize p -> 0 <= q_numOrthoConst p <= q_n p ->
  init_basis p guess s = Some out -> io_code out = 0 ->
  let taken := io_next out - q_numOrthoConst p in
  taken = Z.min (q_initSize p) (Z.min (q_n p - q_numOrthoConst p)
            (if q_locking p then q_minRestartSize p else q_maxBasisSize p)) /\
  exists t V0, (forall j, 0 <= j < taken -> V0 j = guess j) /\
    forall j, 0 <= j < taken -> j < io_basis out -> j < orth_rank t V0 ->
      iV (io_st out) j = orth_col t V0 j.
Proof.
  intros p guess s out MB IS RS MBB OC R Z0. unfold InitModel.init_basis in R.
  set (i0 := if q_locking p then Z.min _ _ else _) in R.
  set (is := Z.max 0 (Z.min (q_n p - q_numOrthoConst p) i0)) in R.
  assert (I0 : is = Z.min (q_initSize p) (Z.min (q_n p - q_numOrthoConst p)
            (if q_locking p then q_minRestartSize p else q_maxBasisSize p)))
    by (unfold is, i0; destruct (q_locking p); lia).
  set (rd0 := if q_mode p =? init_krylov then 0 else _) in R.
  set (rd := Z.max 0 _) in R.
  set (s1 := set_V s _) in R.
  set (s2 := randomize rand_col is (is + rd - 1) s1) in R.
  destruct (ortho 0 (is + rd - 1) s2) as [[e nB] s3] eqn:O1.
  assert (G : forall j, 0 <= j < is -> iV s2 j = guess j).
  { intros j J. unfold s2. cbn [iV set_V randomize]. rng. unfold s1. cbn [iV set_V]. rng. reflexivity. }
  assert (RD : 0 <= rd) by (unfold rd; lia).
  assert (NB : forall j, 0 <= j < is -> j < orth_rank (tick s2) (iV s2) -> j < nB).
  { intros j J1 J2. pose proof (f_equal (fun z => snd (fst z)) O1) as E.
    cbv beta in E. unfold InitModel.ortho in E. cbn [fst snd] in E. rewrite <- E.
    destruct (Z.ltb_spec (is + rd - 1) 0); lia. }
  assert (V3 : forall j, 0 <= j < is -> iV s3 j = orth_col (tick s2) (iV s2) j).
  { intros j J. unfold InitModel.ortho in O1. injection O1 as _ _ <-. cbn [iV set_V]. rng. reflexivity. }
  destruct (Z.eqb_spec e 0) as [->|NE]; cbn [negb] in R.
  2:{ injection R as <-. contradiction. }
  destruct (matvec_W A matvec_err 0 0 nB s3) as [e4 s4] eqn:MV.
  destruct (Z.eqb_spec e4 0) as [->|NE]; cbn [negb] in R.
  2:{ injection R as <-. contradiction. }
  assert (V4 : iV s4 = iV s3).
  { unfold matvec_W in MV. destruct (Z.leb_spec nB 0); injection MV; intros; subst; reflexivity. }
  assert (F : forall b st, (forall j, 0 <= j < nB -> iV st j = iV s4 j) ->
     let out := mkIo 0 b (q_numOrthoConst p + is) (q_initSize p - is) st in
     let taken := io_next out - q_numOrthoConst p in
     taken = Z.min (q_initSize p) (Z.min (q_n p - q_numOrthoConst p)
            (if q_locking p then q_minRestartSize p else q_maxBasisSize p)) /\
     exists t V0, (forall j, 0 <= j < taken -> V0 j = guess j) /\
       forall j, 0 <= j < taken -> j < io_basis out -> j < orth_rank t V0 ->
      iV (io_st out) j = orth_col t V0 j).
  { intros b st E. cbn [io_next io_basis io_st]. replace (q_numOrthoConst p + is - q_numOrthoConst p) with is by lia.
    split; auto. exists (tick s2), (iV s2). split; auto. intros j J1 _ J2.
    rewrite E by (split; [lia|]; now apply NB). rewrite V4. now apply V3. }
  destruct (q_mode p =? init_krylov).
  - set (r := Z.min (q_minRestartSize p) (q_n p - q_numOrthoConst p)) in R.
    destruct (init_block_krylov _ nB (r - 1) s4) as [[e5 s5]|] eqn:K; [|discriminate].
    cbn [bind] in R. destruct (Z.eqb_spec e5 0) as [->|NE]; cbn [negb] in R.
    2:{ injection R as <-. contradiction. }
    injection R as <-. apply F. intros j J.
    destruct (krylov_ok _ _ _ _ _ K MB) as (_ & V5 & _ & _). apply V5. lia.
  - injection R as <-. apply F. auto.
Qed.

(** The size of the basis in each mode, when no column is rejected: the guesses
    taken, completed to the restart size (Krylov, random) or to the block size. *)
Theorem C21_basis_size : forall p guess s out,
  1 <= q_maxBlockSize p -> 0 <= q_initSize p -> 0 <= q_minRestartSize p ->
  0 <= q_maxBasisSize p -> 0 <= q_numOrthoConst p <= q_n p ->
  init_basis p guess s = Some out -> io_code out = 0 ->
  let taken := io_next out - q_numOrthoConst p in
  let room := q_n p - q_numOrthoConst p in
  (q_mode p = init_krylov -> io_basis out = Z.min (q_minRestartSize p) room) /\
  (q_mode p <> init_krylov ->
     let wanted := Z.min room (Z.max taken (if q_mode p =? init_random then q_minRestartSize p else q_maxBlockSize p)) in
     io_basis out <= wanted /\
     ((forall t V0, wanted <= orth_rank t V0) -> io_basis out = wanted)).
Proof.
  intros p guess s out MB IS RS MBB OC R Z0. unfold InitModel.init_basis in R.
  set (i0 := if q_locking p then Z.min _ _ else _) in R.
  set (is := Z.max 0 (Z.min (q_n p - q_numOrthoConst p) i0)) in R.
  assert (I0 : 0 <= is <= q_n p - q_numOrthoConst p) by (unfold is, i0; destruct (q_locking p); lia).
  set (rd0 := if q_mode p =? init_krylov then 0 else _) in R.
  set (rd := Z.max 0 _) in R.
  set (s1 := set_V s _) in R.
  set (s2 := randomize rand_col is (is + rd - 1) s1) in R.
  destruct (ortho 0 (is + rd - 1) s2) as [[e nB] s3] eqn:O1.
  pose proof (f_equal (fun z => snd (fst z)) O1) as E.
  cbv beta in E. unfold InitModel.ortho in E. cbn [fst snd] in E.
  destruct (Z.eqb_spec e 0) as [->|NE]; cbn [negb] in R.
  2:{ injection R as <-. contradiction. }
  destruct (matvec_W A matvec_err 0 0 nB s3) as [e4 s4] eqn:MV.
  destruct (Z.eqb_spec e4 0) as [->|NE]; cbn [negb] in R.
  2:{ injection R as <-. contradiction. }
  destruct (Z.eqb_spec (q_mode p) init_krylov) as [M|M].
  - destruct (init_block_krylov _ nB _ s4) as [[e5 s5]|] eqn:K; [|discriminate].
    cbn [bind] in R. destruct (Z.eqb_spec e5 0) as [->|NE]; cbn [negb] in R.
    2:{ injection R as <-. contradiction. }
    injection R as <-. split; [reflexivity|contradiction].
  - injection R as <-. split; [contradiction|]. intros _. cbn [io_next io_basis].
    replace (q_numOrthoConst p + is - q_numOrthoConst p) with is by lia.
    unfold rd, rd0 in *. 
    destruct (q_mode p =? init_random); (split; [|intros O; specialize (O (tick s2) (iV s2))]);
    match type of E with context [if ?b then _ else _] => destruct b eqn:Eb end; lia.
Qed.

Lemma krylov_ends : forall mb dv1 dv2 s, 1 <= mb -> init_block_krylov mb dv1 dv2 s <> None.
Proof.
  intros mb dv1 dv2 s MB. unfold InitModel.init_block_krylov.
  destruct (Z.leb_spec (dv2 - dv1 + 1) 0); [discriminate|].
  set (bs := if dv2 - dv1 + 1 <=? mb then 1 else mb).
  assert (BS : 1 <= bs <= dv2 - dv1 + 1)
    by (unfold bs; destruct (Z.leb_spec (dv2 - dv1 + 1) mb); lia).
  destruct (ortho dv1 _ _) as [[e nV] s2]. destruct (negb (e =? 0)); [discriminate|].
  destruct (negb (nV =? dv1 + bs)); [discriminate|].
  destruct (krylov_loop _ bs dv2 _ _ s2) as [[e5 s5]|] eqn:L.
  - cbn [bind]. destruct (negb (e5 =? 0)); discriminate.
  - exfalso. revert L. apply krylov_loop_ends; lia.
Qed.

(** It always finishes. *)
Theorem C21_terminates : forall p guess s, 1 <= q_maxBlockSize p -> init_basis p guess s <> None.
Proof.
  intros p guess s MB. unfold InitModel.init_basis.
  destruct (ortho 0 _ _) as [[e nB] s3]. destruct (negb (e =? 0)); [discriminate|].
  destruct (matvec_W _ _ _ _ _ s3) as [e4 s4]. destruct (negb (e4 =? 0)); [discriminate|].
  destruct (q_mode p =? init_krylov); [|discriminate].
  destruct (init_block_krylov _ nB _ s4) as [[e5 s5]|] eqn:K.
  - cbn [bind]. destruct (negb (e5 =? 0)); discriminate.
  - exfalso. revert K. now apply krylov_ends.
Qed.
End C21.

(** A concrete run: columns are integers, A doubles, orthogonalization adds one
    and accepts everything; two guesses, restart size seven, block size two. *)
Section Instance.
Definition oc (t : nat) (V : Z -> Z) (j : Z) : Z := V j + 1.
Definition run (p : iparams) := init_basis (Z.mul 2) oc (fun _ _ => 100) (fun _ => 0)
  (fun t j => Z.of_nat t * 1000 + j) (fun _ => 0) p (fun j => 10 + j)
  (mkIst (fun _ => -1) (fun _ => -2) 0 0).
Example C21_nonvacuous :
  match run (mkIp 100 0 2 15 7 2 true init_krylov) with
  | Some o => io_code o = 0 /\ io_basis o = 7 /\ imv (io_st o) = 7 /\
      iW (io_st o) 6 = 2 * iV (io_st o) 6 /\ iV (io_st o) 0 = 11 /\ iW (io_st o) 7 = -2
  | None => False end.
Proof. vm_compute. repeat split. Qed.

Example C21_sizes_nonvacuous :
  match run (mkIp 100 0 2 15 7 3 true init_random), run (mkIp 100 0 2 15 7 3 true init_user) with
  | Some o, Some o' => io_code o = 0 /\ io_basis o = 7 /\ io_code o' = 0 /\ io_basis o' = 3
  | _, _ => False end.
Proof. vm_compute. repeat split. Qed.

(** Soft locking with more guesses than the restart size, Krylov mode (the
    default): guesses are orthonormalized and multiplied, then dropped from the
    basis without remaining available. *)
Theorem C21_guesses_dropped_refuted :
  match run (mkIp 100 0 9 15 7 2 false init_krylov) with
  | Some o => io_code o = 0 /\ io_basis o = 7 /\ io_guesses o = 0 /\ imv (io_st o) = 9
  | None => False end.
Proof. vm_compute. repeat split. Qed.
End Instance.

Print Assumptions C21_basis_size.
Print Assumptions C21_products_match.
Print Assumptions C21_products_counted.
Print Assumptions C21_terminates.
Print Assumptions C21_guesses_used.
Print Assumptions C21_guesses_dropped_refuted.
